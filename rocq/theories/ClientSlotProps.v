(** C98: what becomes of the places of peers that are gone. *)
From Coq Require Import List NArith ZArith Lia Bool Arith Permutation.
From Coq Require Import Init.Byte.
From Verif Require Import Base Assoc BitmapModel BitmapProofs IdModel WireModel TableModel PeersModel PeersSpec PeersProofs PeersProps BencodeModel TrackerModel ManagerModel ManagerSpec ManagerProofs ManagerProofs2 ManagerProps
  KrpcModel DhtModel DhtSpec DhtMgrModel FetchModel TaskModel DhtSysModel DhtSysSpec DhtSysProps ClientModel ClientSpec ClientProps ClientInvProps.
Import ListNotations.
Set Implicit Arguments.

(** Connections that stay the same but for ending, handshake included. *)
Definition wane2 (x x' : pcon) : Prop := pc_peer x' = pc_peer x /\ (pc_con x' = true -> pc_con x = true) /\ pc_shaking x' = pc_shaking x.
Lemma wane2_refl : forall l, Forall2 wane2 l l.
Proof. induction l; constructor; auto. split; auto. Qed.
Lemma wane2_upd : forall l i x x', nth_error l i = Some x -> wane2 x x' -> Forall2 wane2 l (upd l i x').
Proof.
  induction l as [|y l IH]; intros [|i] x x' N W; cbn in *; try discriminate.
  - injection N as ->. constructor; [exact W|apply wane2_refl].
  - constructor; [split; auto|eauto].
Qed.
Lemma wane2_to : forall l l' x, Forall2 wane2 l l' -> In x l -> exists x', In x' l' /\ wane2 x x'.
Proof. induction 1 as [|y y' l l' A _ IH]; cbn; [tauto|]. intros [<-|I]; [eauto|]. destruct (IH I) as (z & B & C). eauto. Qed.
Lemma wane2_in : forall l l' x', Forall2 wane2 l l' -> In x' l' -> exists x, In x l /\ wane2 x x'.
Proof. induction 1 as [|y y' l l' A _ IH]; cbn; [tauto|]. intros [<-|I]; [eauto|]. destruct (IH I) as (x & B & C). eauto. Qed.

(** Connections whose handshake succeeded, and those that hold a place. *)
Definition done (x : pcon) : bool := negb (pc_shaking x).
Definition holds (x : pcon) : bool := pc_con x || negb (pc_shaking x).
Lemma wane2_done : forall l l', Forall2 wane2 l l' -> length (filter done l') = length (filter done l).
Proof. induction 1 as [|x x' l l' (_ & _ & A) _ IH]; cbn; [reflexivity|]. unfold done in *. rewrite A. destruct (pc_shaking x); cbn; lia. Qed.
Lemma wane2_holds : forall l l', Forall2 wane2 l l' -> length (filter holds l') <= length (filter holds l).
Proof.
  induction 1 as [|x x' l l' (_ & B & A) _ IH]; cbn; [lia|]. unfold holds in *. rewrite A. destruct (pc_shaking x); cbn; [|rewrite !orb_true_r; cbn; lia].
  rewrite !orb_false_r. destruct (pc_con x'); [rewrite B by reflexivity; cbn; lia|destruct (pc_con x); cbn; lia].
Qed.
Lemma done_holds : forall l, length (filter done l) <= length (filter holds l).
Proof. induction l as [|x l IH]; cbn; [lia|]. unfold done, holds in *. destruct (pc_shaking x); cbn; [destruct (pc_con x); cbn; lia|]. rewrite orb_true_r. cbn. lia. Qed.
Lemma upd_filter : forall (f : pcon -> bool) l i x x', nth_error l i = Some x -> length (filter f (upd l i x')) + (if f x then 1 else 0) = length (filter f l) + if f x' then 1 else 0.
Proof.
  induction l as [|y l IH]; intros [|i] x x' N; cbn in *; try discriminate.
  - injection N as ->. destruct (f x), (f x'); cbn; lia.
  - specialize (IH _ _ x' N). destruct (f y); cbn; lia.
Qed.
Lemma upd_inv : forall A (l : list A) i x y, In y (upd l i x) -> y = x \/ In y l.
Proof. induction l as [|z l IH]; intros [|i] x y I; cbn in *; auto; destruct I as [I|I]; auto. destruct (IH _ _ _ I); auto. Qed.
Lemma upd_at : forall A (l : list A) i x y, nth_error l i = Some y -> In x (upd l i x).
Proof. induction l as [|z l IH]; intros [|i] x y N; cbn in *; try discriminate; auto. right. eapply IH; eauto. Qed.
Lemma upd_other : forall (l : list pcon) i x y z, nth_error l i = Some y -> In z l -> z <> y -> In z (upd l i x).
Proof. induction l as [|w l IH]; intros [|i] x y z N I D; cbn in *; try discriminate; destruct I as [I|I]; auto. - congruence. - right. eapply IH; eauto. Qed.

Lemma last_returned_in : forall bad p st, last_returned bad p = Some st -> In (p, st) bad.
Proof.
  induction bad as [|[q sq] bad IH] using rev_ind; intros p st H; [discriminate|]. unfold last_returned in H. rewrite fold_left_app in H. cbn [fold_left fst snd] in H. apply in_or_app. destruct (addr_eqb q p) eqn:E; [|left; apply IH; exact H].
  apply addr_eqb_spec in E. injection H as <-. right. left. congruence.
Qed.

Section client.
Variable sha : bytes -> bytes.
Variable usize_max : nat.
Variable cap : caps.
Variable tcp_port : N.
Variable cfgs : list tracker_cfg.
Variable hashes : list ID.
Notation step := (cstep sha usize_max cap tcp_port cfgs).
Notation run := (crun sha usize_max cap tcp_port cfgs).
Notation cinv := (cinv hashes).

Definition shakes (h : list (cev * list cout)) : nat := length (filter shaken (map fst h)).
Lemma shakes_app : forall h e o, shakes (h ++ [(e, o)]) = shakes h + if shaken e then 1 else 0.
Proof. intros. unfold shakes. rewrite map_app, filter_app, app_length. cbn. destruct (shaken e); reflexivity. Qed.

Record jinv (h : list (cev * list cout)) (s : client) : Prop := mk_jinv {
  j_act : forall m x, q_mgr s = Some m -> In x (q_cons s) -> pc_shaking x = false -> In (pc_peer x) (map fst (m_active m));
  j_rec : forall p c, In (p, c) (q_rec s) -> peer_gone c = true -> c = CUnreachable /\ exists x, In x (q_cons s) /\ pc_peer x = p /\ pc_shaking x = true;
  j_cnt : shakes h = length (filter done (q_cons s));
  j_lim : length (filter holds (q_cons s)) <= 10;
  j_sub : forall m p, q_mgr s = Some m -> In p (map fst (m_active m)) \/ In p (map fst (m_inactive m)) -> In p (connects h);
  j_unr : forall m p st, q_mgr s = Some m -> In (p, st) (m_inactive m) -> st = UnableToConnect
}.

Lemma quiet_j : forall h s e s' o, jinv h s -> shaken e = false -> q_mgr s' = q_mgr s -> Forall2 wane2 (q_cons s) (q_cons s') ->
  (forall p c, In (p, c) (q_rec s') -> In (p, c) (q_rec s) \/ peer_gone c = false \/ c = CUnreachable /\ exists x, In x (q_cons s') /\ pc_peer x = p /\ pc_shaking x = true) ->
  jinv (h ++ [(e, o)]) s'.
Proof.
  intros h s e s' o J E M W R. split.
  - rewrite M. intros m x A B C. destruct (wane2_in _ W B) as (y & Y & P & _ & S). rewrite P. apply (j_act J _ A Y). congruence.
  - intros p c I G. destruct (R _ _ I) as [X|[X|X]]; [|congruence|exact X]. destruct (j_rec J _ _ X G) as (U & x & A & B & C). split; [exact U|]. destruct (wane2_to _ W A) as (x' & A' & P & _ & S). exists x'. split; [exact A'|]. split; congruence.
  - rewrite shakes_app, E, (wane2_done W), Nat.add_0_r. apply (j_cnt J).
  - pose proof (wane2_holds W). pose proof (j_lim J). lia.
  - rewrite M. intros m p A B. rewrite connects_app. apply in_or_app. left. apply (j_sub J _ A B).
  - rewrite M. apply (j_unr J).
Qed.
Lemma holds_bound : forall m l, NoDup (map pc_peer l) -> inv (length hashes) m -> (forall x, In x l -> holds x = true -> In (pc_peer x) (map fst (m_active m))) -> length (filter holds l) <= length (m_active m).
Proof.
  intros m l ND I A. rewrite <- (map_length pc_peer), <- (map_length fst (m_active m)). apply NoDup_incl_length.
  - clear A. induction l as [|x l IH]; cbn; [constructor|]. inversion ND as [|? ? N1 N2]; subst. destruct (holds x); cbn; auto. constructor; auto. intro X. apply N1. apply in_map_iff in X. destruct X as (y & E & Y). apply filter_In in Y. rewrite <- E. apply in_map. tauto.
  - intros p P. apply in_map_iff in P. destruct P as (x & <- & X). apply filter_In in X. destruct X. auto.
Qed.
Lemma jinv_step : forall h s e s' o, cinv h s -> jinv h s -> step s e = Some (s', o) -> jinv (h ++ [(e, o)]) s'.
Proof.
  intros h s e s' o I J H. unfold cstep in H. destruct (q_exit s); [discriminate|].
  destruct e as [sent| |i ok|i m|i|i|i|i ix bs|i|e|i now e| | |ks ks'].
  - destruct (q_mgr s) as [m|] eqn:M; [|discriminate]. pose proof (reach_inv_m (ci_reach I M)) as [INV ND]. cbn [fst snd] in INV, ND.
    destruct (@refresh_spec _ m _ INV ND) as (m1 & tab & o1 & RF & INV1 & ND1 & _ & SP). rewrite RF in H.
    destruct (@m_assign_spec _ m1 sent INV1) as (m2 & o2 & AS & INV2 & _ & KA & IA & CA & _). rewrite AS in H. injection H as <- <-.
    destruct (@refresh_conn _ _ _ _ _ RF) as (C1 & C2 & C3).
    assert (PE : map pc_peer (q_cons s ++ flat_map spawn o1) = rev (m_conn m1)). { rewrite map_app, C1, rev_app_distr, rev_involutive. f_equal. apply (ci_conn I M). }
    assert (NDP : NoDup (map pc_peer (q_cons s ++ flat_map spawn o1))). { rewrite PE. apply NoDup_rev. apply C2. pose proof (ci_nodup I) as Z. rewrite (ci_conn I M) in Z. rewrite <- (rev_involutive (m_conn m)). apply NoDup_rev. exact Z. }
    assert (SB : forall p, In p (map fst (m_active m)) -> In p (m_conn m)).
    { intros p P. pose proof (j_sub J _ M (or_introl P)) as Z. rewrite (ci_hist I), (ci_conn I M) in Z. apply in_rev. exact Z. }
    assert (AS1 : forall p, In p (map fst (m_active m1)) -> In p (m_conn m1)).
    { intros p P. destruct SP as [SP|(ps & _ & _ & _ & K & _ & CK & _)]; [injection SP as -> _ _; auto|]. apply CK. apply K in P. destruct P as [P|P]; auto. }
    assert (AC : forall x, In x (q_cons s ++ flat_map spawn o1) -> holds x = true -> In (pc_peer x) (map fst (m_active m1))).
    { intros x X C. apply in_app_or in X. assert (OLD : In x (q_cons s) -> In (pc_peer x) (map fst (m_active m))).
      { intro Y. unfold holds in C. apply orb_true_iff in C. destruct C as [C|C]; [apply (ci_act I _ M Y C)|apply (j_act J _ M Y)]. apply negb_true_iff in C. exact C. }
      destruct SP as [SP|(ps & _ & _ & _ & K & _ & _ & S)].
      - injection SP as -> -> ->. destruct X as [X|[]]. auto.
      - apply K. destruct X as [X|X]; [right; auto|left]. apply spawn_new in X. destruct (S _ X) as (q & E & Q & _). injection E as <-. exact Q. }
    assert (CH : connects (h ++ [(CTick sent, flat_map told o1)]) = rev (m_conn m1)). { rewrite connects_app, C3, connects_told, (ci_hist I), <- map_app. exact PE. }
    split; cbn [with_mgr with_sys with_cons with_peers q_mgr q_cons q_dht q_rec y_peers].
    + intros m' x E X F. destruct (_ && _); [discriminate|]. injection E as <-. rewrite KA. apply AC; [exact X|]. unfold holds. rewrite F. apply orb_true_r.
    + intros p c IN G. destruct (j_rec J _ _ IN G) as (U & x & X & P). split; [exact U|]. exists x. split; [apply in_or_app; auto|exact P].
    + rewrite shakes_app, filter_app, app_length, (j_cnt J). cbn [shaken]. f_equal. clear. induction o1 as [|y o1 IH]; cbn; [reflexivity|]. destruct y; cbn; exact IH.
    + pose proof (@holds_bound m1 _ NDP INV1 AC). pose proof (i_size INV1). lia.
    + intros m' p E X. destruct (_ && _); [discriminate|]. injection E as <-. rewrite CH. apply in_rev. rewrite rev_involutive. rewrite KA, IA in X. destruct X as [X|X]; [auto|].
      destruct SP as [SP|(ps & _ & _ & _ & _ & N & _)]; [|rewrite N in X; destruct X]. injection SP as -> _ _. pose proof (j_sub J _ M (or_intror X)) as Z. rewrite (ci_hist I), (ci_conn I M) in Z. apply in_rev. exact Z.
    + intros m' p st E X. destruct (_ && _); [discriminate|]. injection E as <-. rewrite IA in X. destruct SP as [SP|(ps & _ & _ & _ & _ & N & _)]; [|rewrite N in X; destruct X]. injection SP as -> _ _. apply (j_unr J _ _ M X).
  - destruct (q_mgr s) as [m|] eqn:M; [|discriminate]. destruct (q_rec s) as [|[p c] q] eqn:Q; [discriminate|]. injection H as <- <-.
    pose proof (ci_reach I M) as RC. pose proof (reach_inv_m RC) as [INV ND]. cbn [fst snd] in INV, ND.
    assert (NC : connects (h ++ [(CTake, [])]) = connects h) by (rewrite connects_app; cbn; apply app_nil_r).
    assert (GN : peer_gone c = true -> c = CUnreachable /\ exists x, In x (q_cons s) /\ pc_peer x = p /\ pc_shaking x = true). { intro G. apply (j_rec J p c); [rewrite Q; left; reflexivity|exact G]. }
    split; cbn [with_mgr with_rec q_mgr q_cons q_dht q_rec].
    + intros m' x E X F. destruct (ManagerModel.handle_message m p c) as [m1| |] eqn:HM; try discriminate. injection E as ->. destruct (@message_inv _ _ _ _ _ INV HM) as (_ & _ & _ & K).
      pose proof (j_act J _ M X F) as A. destruct (peer_gone c) eqn:G; [|destruct K as (K & _); rewrite K; exact A].
      destruct K as (K & _). rewrite K. apply (@adel_keys _ _ _ (i_nodup INV)). split; [|exact A]. intro EP. destruct (GN eq_refl) as (_ & y & Y & P & T).
      apply In_nth_error in Y. destruct Y as (j & Y). rewrite (@same_peer _ _ _ _ (ci_nodup I) Y X (eq_trans EP (eq_sym P))) in F. congruence.
    + intros p' c' IN G. apply (j_rec J p' c'); [rewrite Q; right; exact IN|exact G].
    + rewrite shakes_app, (j_cnt J). cbn [shaken]. lia.
    + apply (j_lim J).
    + intros m' p' E X. rewrite NC. destruct (ManagerModel.handle_message m p c) as [m1| |] eqn:HM; try discriminate. injection E as ->. destruct (@message_inv _ _ _ _ _ INV HM) as (_ & _ & _ & K).
      destruct (peer_gone c) eqn:G; [|destruct K as (K1 & K2); rewrite K1, K2 in X; apply (j_sub J _ M X)]. destruct K as (K1 & st & K2). destruct X as [X|X].
      * rewrite K1 in X. apply (@adel_keys _ _ _ (i_nodup INV)) in X. apply (j_sub J _ M). tauto.
      * destruct K2 as [K2|(K2 & _)]; rewrite K2 in X; [|apply (j_sub J _ M); auto]. rewrite map_app in X. apply in_app_or in X. destruct X as [X|[X|[]]]; [apply (j_sub J _ M); auto|]. cbn in X. subst p'.
        destruct (GN eq_refl) as (_ & y & Y & P & _). rewrite (ci_hist I), <- P. apply in_map. exact Y.
    + intros m' p' st E X. destruct (ManagerModel.handle_message m p c) as [m1| |] eqn:HM; try discriminate. injection E as ->. destruct (@message_inv _ _ _ _ _ INV HM) as (_ & _ & _ & K).
      destruct (peer_gone c) eqn:G; [|destruct K as (K1 & K2); rewrite K2 in X; apply (j_unr J _ _ M X)]. destruct (GN eq_refl) as (-> & _). clear K. cbn [ManagerModel.handle_message] in HM. unfold mark_inactive in HM.
      destruct (aget p (m_active m)) as [inf|]; [|injection HM as <-; apply (j_unr J _ _ M X)]. destruct (bm_bits _) as [hs| |]; try discriminate. cbn [rbind] in HM. destruct (freq_dec _ _) as [f| |]; try discriminate. cbn [rbind] in HM. injection HM as <-. cbn in X.
      apply in_app_or in X. destruct X as [X|[X|[]]]; [apply (j_unr J _ _ M X)|]. congruence.
  - destruct (nth_error (q_cons s) i) as [x|] eqn:N; [|discriminate]. destruct (pc_con x && pc_shaking x) eqn:CS; [|discriminate]. apply andb_true_iff in CS. destruct CS as (C & S). destruct ok.
    + injection H as <- <-. set (x' := mk_pcon (pc_peer x) false true (pc_dl x)).
      assert (NX : forall y, In y (q_cons s) -> pc_peer y = pc_peer x -> y = x). { intros y Y P. apply (@same_peer _ _ _ _ (ci_nodup I) N Y P). }
      split; cbn [with_cons q_mgr q_cons q_rec].
      * intros m y M Y F. apply upd_inv in Y. destruct Y as [->|Y]; [|apply (j_act J _ M Y F)]. cbn [pc_peer x']. apply (ci_act I _ M (nth_error_In _ _ N) C).
      * intros p c R G. destruct (j_rec J _ _ R G) as (U & y & Y & P & T). split; [exact U|]. exists y. split; [|auto]. apply (@upd_other _ _ _ _ _ N Y). intros ->. destruct (ci_rec I _ _ R G) as (z & Z & P' & F). rewrite (NX z Z) in F by congruence. congruence.
      * rewrite shakes_app. cbn [shaken]. pose proof (@upd_filter done _ _ _ x' N) as Z. unfold done in Z at 2 4. cbn in Z. rewrite S in Z. cbn in Z. pose proof (j_cnt J). unfold x' in *. lia.
      * pose proof (@upd_filter holds _ _ _ x' N) as Z. unfold holds in Z at 2 4. cbn in Z. rewrite C in Z. cbn in Z. pose proof (j_lim J). unfold x' in *. lia.
      * intros m p M X. rewrite connects_app. apply in_or_app. left. apply (j_sub J _ M X).
      * apply (j_unr J).
    + destruct (tell_mgr s (pc_peer x) CUnreachable) as [s1|] eqn:T; [|discriminate]. cbn [option_map] in H. injection H as <- <-. destruct (@tell_rec _ _ _ _ T) as (A & B & D & E).
      apply (@quiet_j h s); cbn [with_cons q_mgr q_cons q_rec]; auto; [eapply wane2_upd; [exact N|]; repeat split; cbn; auto; discriminate|].
      intros p c IN. destruct E as [E|E]; rewrite E in IN; [auto|]. apply in_app_or in IN. destruct IN as [IN|[IN|[]]]; [auto|]. injection IN as <- <-. right. right. split; [reflexivity|]. eexists. split; [eapply upd_at; eauto|]. auto.
  - destruct (nth_error (q_cons s) i) as [x|] eqn:N; [|discriminate]. destruct (_ && _); [|discriminate]. destruct (deliver_all _ _ _ _ _ _) as [s1|] eqn:D; [|discriminate]. cbn [option_map] in H. injection H as <- <-.
    destruct (@deliver_frame _ _ _ _ _ _ _ _ D) as (A & B & _ & R). apply (@quiet_j h s); auto; [rewrite B; apply wane2_refl|]. intros p c IN. destruct R as [R|(c' & R & G & _)]; rewrite R in IN; [auto|]. apply in_app_or in IN. destruct IN as [IN|[IN|[]]]; [auto|]. injection IN as <- <-. auto.
  - destruct (nth_error (q_cons s) i) as [x|] eqn:N; [|discriminate]. destruct (pc_con x && negb (pc_shaking x)) eqn:CS; [|discriminate]. injection H as <- <-. apply andb_true_iff in CS. destruct CS as (_ & S). apply negb_true_iff in S. apply (@quiet_j h s); auto. eapply wane2_upd; [exact N|]. split; [reflexivity|]. split; [discriminate|auto].
  - destruct (nth_error (q_cons s) i) as [x|] eqn:N; [|discriminate]. destruct (_ && _); [|discriminate]. injection H as <- <-. apply (@quiet_j h s); auto. eapply wane2_upd; [exact N|]. repeat split; auto.
  - destruct (nth_error (q_cons s) i) as [x|] eqn:N; [|discriminate]. destruct (pc_dl x); [|discriminate]. injection H as <- <-. apply (@quiet_j h s); auto. eapply wane2_upd; [exact N|]. repeat split; auto.
  - destruct (nth_error (q_cons s) i) as [x|] eqn:N; [|discriminate]. destruct (pc_dl x); [|discriminate]. destruct (tell_mgr s _ _) as [s1|] eqn:T; [|discriminate]. cbn [option_map] in H. injection H as <- <-. destruct (@tell_rec _ _ _ _ T) as (A & B & D & E).
    apply (@quiet_j h s); auto; [rewrite B; apply wane2_refl|]. intros p c IN. destruct E as [E|E]; rewrite E in IN; [auto|]. apply in_app_or in IN. destruct IN as [IN|[IN|[]]]; [auto|]. injection IN as <- <-. auto.
  - destruct (nth_error (q_cons s) i) as [x|] eqn:N; [|discriminate]. destruct (q_mgr s) eqn:M; [discriminate|]. destruct (_ && _) eqn:CS; [|discriminate]. injection H as <- <-. apply andb_true_iff in CS. destruct CS as (CS & _). apply andb_true_iff in CS. destruct CS as (_ & S). apply negb_true_iff in S.
    apply (@quiet_j h s); auto. eapply wane2_upd; [exact N|]. split; [reflexivity|]. split; [discriminate|auto].
  - destruct (dht_ok s e); [|discriminate]. destruct (ystep _ _ _ _ _ _) as [[y o']|]; [|discriminate]. cbn [option_map fst snd] in H. injection H as <- <-. apply (@quiet_j h s); auto. apply wane2_refl.
  - destruct (nth_error cfgs i) as [c|]; [|discriminate]. destruct (nth_error (q_trk s) i) as [t|]; [|discriminate]. destruct (trk_ok s e); [|discriminate]. destruct (session_step _ _ _ _ _) as [[t' o']|]; [|discriminate]. cbn [option_map fst snd] in H. injection H as <- <-. apply (@quiet_j h s); auto. apply wane2_refl.
  - destruct (q_sig s); [discriminate|]. injection H as <- <-. apply (@quiet_j h s); auto. apply wane2_refl.
  - destruct (_ && _); [|discriminate]. injection H as <- <-. apply (@quiet_j h s); auto. apply wane2_refl.
  - injection H as <- <-. destruct J as [A B C D E F].
    split; cbn [with_mgr with_sys with_peers q_mgr q_cons q_rec]; auto.
    + intros m' x M X S. destruct (q_mgr s) as [m|]; [|discriminate]. injection M as <-. cbn [with_active m_active]. eapply Permutation_in; [apply Permutation_map; apply reorder_perm|]. eapply A; eauto.
    + rewrite shakes_app, C. cbn [shaken]. lia.
    + intros m' p M X. rewrite connects_app. cbn. rewrite app_nil_r. destruct (q_mgr s) as [m|]; [|discriminate]. injection M as <-. cbn [with_active m_active m_inactive] in X. apply (E m p eq_refl). destruct X as [X|X]; [left|right; exact X]. eapply Permutation_in; [|exact X]. apply Permutation_sym. apply Permutation_map. apply reorder_perm.
    + intros m' p st M X. destruct (q_mgr s) as [m|]; [|discriminate]. injection M as <-. eapply F; eauto.
Qed.
Lemma jinv_run : forall own secret info fs_ok t now es s h, run (client_start cfgs own secret info hashes fs_ok t now) es = Some (s, h) -> cinv h s /\ jinv h s.
Proof.
  intros own secret info fs_ok t now es s h R.
  apply (@crun_inv sha usize_max cap tcp_port cfgs (fun h s => cinv h s /\ jinv h s) (client_start cfgs own secret info hashes fs_ok t now)) with (es := es); [|clear es s h R|exact R].
  - cbv beta. split; [apply (cinv_start sha)|].
    assert (A : forall m, q_mgr (client_start cfgs own secret info hashes fs_ok t now) = Some m -> m_active m = [] /\ m_inactive m = []).
    { intros m E. cbn in E. destruct fs_ok; [|discriminate]. destruct (m_init hashes) as [m0| |] eqn:MI; try discriminate. injection E as ->. unfold m_init in MI. destruct (bm_new _); try discriminate. injection MI as <-. auto. }
    split; try (cbn; intros; contradiction).
    + reflexivity.
    + cbn. lia.
    + intros m p E [X|X]; destruct (A _ E) as (B & C); rewrite ?B, ?C in X; destruct X.
    + intros m p st E X. destruct (A _ E) as (_ & C). rewrite C in X. destruct X.
  - intros h s e s' o (A & B) H. split; [eapply cinv_step; eauto|eapply jinv_step; eauto].
Qed.

(** ** C98 *)
(** In all its life the client completes at most ten handshakes. *)
Theorem C98_ten_in_a_lifetime : forall own secret info fs_ok t now es s h, run (client_start cfgs own secret info hashes fs_ok t now) es = Some (s, h) ->
  length (filter shaken es) <= 10.
Proof.
  intros own secret info fs_ok t now es s h R. destruct (jinv_run _ _ _ _ _ _ _ R) as (I & J). rewrite <- (crun_events _ _ _ _ _ _ _ R). change (shakes h <= 10). rewrite (j_cnt J). pose proof (done_holds (q_cons s)). pose proof (j_lim J). lia.
Qed.
Lemma full_step : forall h s e s' o, cinv h s -> jinv h s -> shakes h = 10 -> step s e = Some (s', o) -> forall p, ~ In (CConnect p) o.
Proof.
  intros h s e s' o I J F H p P. unfold cstep in H. destruct (q_exit s); [discriminate|].
  destruct e as [sent| |i ok|i m|i|i|i|i ix bs|i|e|i now e| | |ks ks'];
  try (repeat match type of H with (match ?x with _ => _ end) = _ => destruct x | (if ?x then _ else _) = _ => destruct x | option_map _ ?x = _ => destruct x as [?|]; cbn [option_map] in H end; try discriminate; injection H as <- <-; destruct P; fail).
  - destruct (q_mgr s) as [m|] eqn:M; [|discriminate]. pose proof (reach_inv_m (ci_reach I M)) as [INV ND]. cbn [fst snd] in INV, ND.
    assert (L : 10 <= length (m_active m)).
    { rewrite (j_cnt J) in F. rewrite <- F. pose proof (done_holds (q_cons s)). etransitivity; [exact H0|]. apply (@holds_bound m _ (ci_nodup I) INV). intros x X C. unfold holds in C. apply orb_true_iff in C. destruct C as [C|C]; [apply (ci_act I _ M X C)|apply (j_act J _ M X)]. apply negb_true_iff in C. exact C. }
    pose proof (i_size INV) as L2. destruct (@refresh_spec _ m _ INV ND) as (m1 & tab & o1 & RF & _). assert (o1 = []). { unfold m_refresh in RF. assert (E : length (m_active m) = 10) by lia. rewrite E in RF. cbn in RF. congruence. }
    subst o1. rewrite RF in H. destruct (m_assign m1 sent) as [[m2 o2]| |]; injection H as <- <-; destruct P.
  - destruct (dht_ok s e); [|discriminate]. destruct (ystep _ _ _ _ _ _) as [[y o']|]; [|discriminate]. cbn [option_map fst snd] in H. injection H as <- <-. apply in_map_iff in P. destruct P as (? & ? & _). discriminate.
  - destruct (nth_error cfgs i) as [c|]; [|discriminate]. destruct (nth_error (q_trk s) i) as [t|]; [|discriminate]. destruct (trk_ok s e); [|discriminate]. destruct (session_step _ _ _ _ _) as [[t' o']|]; [|discriminate]. cbn [option_map fst snd] in H. injection H as <- <-.
    apply in_flat_map in P. destruct P as (x & _ & P). destruct x; cbn in P; [destruct P as [P|[]]; discriminate|destruct P].
Qed.
(** After the tenth it never connects to anybody again, whatever becomes of the
    ten and whoever else it is told of. *)
Theorem C98_for_good : forall own secret info fs_ok t now es s h es' s' h', run (client_start cfgs own secret info hashes fs_ok t now) es = Some (s, h) -> length (filter shaken es) = 10 ->
  run s es' = Some (s', h') -> connects h' = [].
Proof.
  intros own secret info fs_ok t now es s h es' s' h' R F R'. destruct (jinv_run _ _ _ _ _ _ _ R) as (I & J). rewrite <- (crun_events _ _ _ _ _ _ _ R) in F. fold (shakes h) in F. clear R es. revert s h I J F h' R'. induction es' as [|e es' IH]; intros s h I J F h' R'; cbn [crun] in R'; [injection R' as <- <-; reflexivity|].
  destruct (step s e) as [[s1 o]|] eqn:E; [|discriminate]. destruct (run s1 es') as [[s2 h2]|] eqn:R; [|discriminate]. injection R' as <- <-.
  assert (I1 : cinv (h ++ [(e, o)]) s1) by (eapply cinv_step; eauto). assert (J1 : jinv (h ++ [(e, o)]) s1) by (eapply jinv_step; eauto).
  assert (F1 : shakes (h ++ [(e, o)]) = 10). { pose proof (j_cnt J1). pose proof (done_holds (q_cons s1)). pose proof (j_lim J1). rewrite shakes_app in *. lia. }
  pose proof (IH _ _ I1 J1 F1 _ R) as N. unfold connects, seen in *. cbn [flat_map snd]. rewrite flat_map_app, N, app_nil_r.
  assert (Z : forall p, ~ In (CConnect p) o) by (intro p; eapply full_step; [exact I|exact J|exact F|exact E]). clear - Z. induction o as [|x o IHo]; [reflexivity|]. cbn. destruct x as [q| |]; [destruct (Z q); left; reflexivity| |]; apply IHo; intros p P; apply (Z p); right; exact P.
Qed.
(** A connection attempt that fails does make room: if the table holds peers that
    were never tried, the manager's next look at it leads to one of them. *)
Theorem C98_unreachable_partial : forall own secret info fs_ok t now es s h m i x q sent, run (client_start cfgs own secret info hashes fs_ok t now) es = Some (s, h) ->
  q_exit s = false -> q_mgr s = Some m -> q_rec s = [] -> nth_error (q_cons s) i = Some x -> pc_con x = true -> pc_shaking x = true ->
  status_of (y_peers (q_dht s)) q Unknown -> (forall q, status_of (y_peers (q_dht s)) q Unknown -> ~ In q (connects h)) ->
  exists s' h', run s [CShake i false; CTake; CTick sent] = Some (s', h') /\ connects h' <> [].
Proof.
  intros own secret info fs_ok t now es s h m i x q sent R X M Q N C S UQ FR. destruct (jinv_run _ _ _ _ _ _ _ R) as (I & J).
  assert (E1 : step s (CShake i false) = Some (with_cons (with_rec s [(pc_peer x, CUnreachable)]) (upd (q_cons s) i (mk_pcon (pc_peer x) true false (pc_dl x))), [])).
  { unfold cstep. rewrite X, N, C, S. cbn [andb]. unfold tell_mgr. rewrite M, Q. cbn. reflexivity. }
  match type of E1 with _ = Some (?z, _) => set (s1 := z) in * end.
  assert (I1 : cinv (h ++ [(CShake i false, [])]) s1) by (eapply cinv_step; eauto). assert (J1 : jinv (h ++ [(CShake i false, [])]) s1) by (eapply jinv_step; eauto).
  assert (M1 : q_mgr s1 = Some m) by exact M. pose proof (reach_inv_m (ci_reach I1 M1)) as [INV ND]. cbn [fst snd] in INV, ND.
  destruct (@inactive_spec _ m (pc_peer x) UnableToConnect INV) as (m1 & HM & INV1 & _ & AI & AD & _).
  assert (E2 : step s1 CTake = Some (with_mgr (with_rec s1 []) (Some m1), [])). { unfold cstep. change (q_exit s1) with (q_exit s). rewrite X, M1. cbn [q_rec s1 with_rec with_cons ManagerModel.handle_message]. rewrite HM. reflexivity. }
  match type of E2 with _ = Some (?z, _) => set (s2 := z) in * end.
  assert (I2 : cinv ((h ++ [(CShake i false, [])]) ++ [(CTake, [])]) s2) by (eapply cinv_step; eauto). assert (J2 : jinv ((h ++ [(CShake i false, [])]) ++ [(CTake, [])]) s2) by (eapply jinv_step; eauto).
  assert (M2 : q_mgr s2 = Some m1) by reflexivity.
  assert (CN : connects ((h ++ [(CShake i false, [])]) ++ [(CTake, [])]) = connects h) by (rewrite !connects_app; cbn; rewrite !app_nil_r; reflexivity).
  assert (AX : In (pc_peer x) (map fst (m_active m))) by apply (ci_act I _ M (nth_error_In _ _ N) C).
  assert (LT : length (m_active m1) < 10).
  { pose proof (i_size INV) as L. rewrite AI. unfold adel. rewrite length_mdel. assert (Y : mhas addr_eqb (pc_peer x) (m_active m) = true) by (apply (mhas_in _ addr_eqb_spec); exact AX). rewrite Y.
    destruct (m_active m); [destruct AX|]. cbn [length] in *. lia. }
  destruct (@C25_batch (y_peers (q_dht s)) (m_inactive m1) (10 - length (m_active m1)) ND) as (t1 & t' & ps & B & N1 & ST & G).
  assert (FQ : forall p, status_of t1 p Unknown -> ~ In p (connects h)).
  { intros p P. apply ST in P. destruct (last_returned (m_inactive m1) p) as [st|] eqn:L; [|apply FR; exact P]. subst st. apply last_returned_in in L. discriminate (j_unr J2 _ _ M2 L). }
  assert (Q1 : status_of t1 q Unknown).
  { apply ST. destruct (last_returned (m_inactive m1) q) as [st|] eqn:L; [|exact UQ]. apply last_returned_in in L. destruct (FR q UQ). rewrite <- CN. apply (j_sub J2 q M2). right. apply in_map_iff. exists (q, st). auto. }
  assert (PK : exists p, In p ps /\ status_of t1 p Unknown).
  { destruct (in_dec addr_dec q ps) as [Y|Y]; [eauto|]. destruct (gb_maximal G) as [L|L]; [|destruct Y; eapply L; [exact Q1|reflexivity]].
    destruct ps as [|p ps]; [exfalso; cbn [length] in L; lia|]. exists p. split; [left; reflexivity|]. destruct (gb_eligible G p (or_introl eq_refl)) as (st & r & S1 & S2). pose proof (gb_priority G p st q Unknown (or_introl eq_refl) S1 S2 Y Q1 eq_refl) as LE. destruct st; cbn in S2; try discriminate; injection S2 as <-; try lia. exact S1. }
  destruct PK as (p & P1 & P2). specialize (FQ p P2).
  pose proof (reach_inv_m (ci_reach I2 M2)) as [INV2 ND2]. cbn [fst snd] in INV2, ND2. change (y_peers (q_dht s2)) with (y_peers (q_dht s)) in *.
  destruct (@refresh_spec _ m1 _ INV2 ND2) as (m3 & tab & o1 & RF & INV3 & _ & _ & SP).
  destruct SP as [SP|(ps' & B' & _ & _ & K & _ & _ & _)].
  { exfalso. unfold m_refresh, MAX_ACTIVE_PEERS in RF. destruct (Nat.ltb_spec 10 (length (m_active m1))); [lia|]. destruct (Nat.eqb_spec (10 - length (m_active m1)) 0); [lia|]. rewrite B in RF. cbn [rbind fst snd] in RF.
    destruct (add_peers_spec ps (inv_inactive [] INV2)) as (m4 & o4 & E' & _ & _ & K' & _). { cbn [with_inactive m_active]. pose proof (gb_size G). lia. }
    rewrite E' in RF. cbn [rmap fst snd] in RF. injection RF as -> -> ->. injection SP as -> -> ->. assert (Z : In p (map fst (m_active m1))) by (apply K'; auto). apply FQ. rewrite <- CN. apply (j_sub J2 p M2). auto. }
  rewrite B in B'. injection B' as <- <-.
  assert (NA : ~ In p (map fst (m_active m1))). { intro Z. apply FQ. rewrite <- CN. apply (j_sub J2 p M2). auto. }
  assert (NC : ~ In p (m_conn m1)). { intro Z. apply FQ. rewrite <- CN, (ci_hist I2), (ci_conn I2 M2). apply in_rev in Z. exact Z. }
  assert (SPN : In (OSpawn p) o1). { eapply (@C66_new_peers_contacted_partial hashes (m1, y_peers (q_dht s)) (m3, t')); [exact (ci_reach I2 M2)|cbn [sys_step fst snd]; rewrite RF; reflexivity|cbn [fst]; apply K; auto|exact NA|exact NC]. }
  destruct (@m_assign_spec _ m3 sent INV3) as (m4 & o2 & AS & _).
  assert (E3 : exists s3, step s2 (CTick sent) = Some (s3, flat_map told o1)). { eexists. unfold cstep. change (q_exit s2) with (q_exit s). rewrite X, M2. change (y_peers (q_dht s2)) with (y_peers (q_dht s)). rewrite RF, AS. reflexivity. }
  destruct E3 as (s3 & E3). exists s3. eexists. split; [cbn [crun]; rewrite E1, E2, E3; reflexivity|].
  intro Z. assert (Y : In p (connects [(CShake i false, []); (CTake, []); (CTick sent, flat_map told o1)])). { unfold connects, seen. cbn [flat_map snd app]. rewrite app_nil_r. apply in_flat_map. exists (CConnect p). split; [|left; reflexivity]. apply in_flat_map. exists (OSpawn p). split; [exact SPN|left; reflexivity]. }
  rewrite Z in Y. destruct Y.
Qed.
End client.

(** The full statement: a client that has lost all its connections and knows a
    peer it has never tried can still come to connect to somebody. *)
Definition C98_makes_room_always (sha : bytes -> bytes) (usize_max : nat) (cap : caps) (tcp_port : N) (cfgs : list tracker_cfg) (s0 : client) : Prop :=
  forall es s h q, crun sha usize_max cap tcp_port cfgs s0 es = Some (s, h) -> q_mgr s <> None -> q_exit s = false -> live s = [] ->
  status_of (y_peers (q_dht s)) q Unknown -> ~ In q (connects h) ->
  exists es' s' h', crun sha usize_max cap tcp_port cfgs s es' = Some (s', h') /\ connects h' <> [].
Definition ex_all_lost : list cev := ex_many ++ map (fun i => CShake i true) (seq 0 10) ++ map CLost (seq 0 10).
Example ex_lost : forall sha usize_max cap tcp_port secret, exists s h,
  crun sha usize_max cap tcp_port [ex_cfg] (ex_client secret) ex_all_lost = Some (s, h) /\ q_mgr s <> None /\ q_exit s = false /\ live s = [] /\
  status_of (y_peers (q_dht s)) (ex_peer_n 11) Unknown /\ ~ In (ex_peer_n 11) (connects h).
Proof.
  intros. eexists _, _. split; [vm_compute; reflexivity|]. split; [discriminate|]. split; [reflexivity|]. split; [reflexivity|]. split; [vm_compute; tauto|]. vm_compute. intro X. repeat (destruct X as [X|X]; [discriminate|]). exact X.
Qed.
(** Ten peers hang up after the handshake: the eleventh is never tried. *)
Theorem C98_makes_room_refuted : forall sha usize_max cap tcp_port secret, ~ C98_makes_room_always sha usize_max cap tcp_port [ex_cfg] (ex_client secret).
Proof.
  intros sha um cap tp secret A. destruct (ex_lost sha um cap tp secret) as (s & h & R & M & X & L & U & N).
  destruct (A _ _ _ _ R M X L U N) as (es' & s' & h' & R' & C). apply C. apply (@C98_for_good sha um cap tp [ex_cfg] [ex_node] ex_own secret ex_info true (t_default ex_own) 0%N ex_all_lost s h es' s' h' R eq_refl R').
Qed.
Example C98_example : exists s h, crun (fun x => x) 100 CAPS 6881 [ex_cfg] (ex_client ex_own) ex_many = Some (s, h) /\
  q_exit s = false /\ q_mgr s <> None /\ q_rec s = [] /\ (exists x, nth_error (q_cons s) 3 = Some x /\ pc_con x = true /\ pc_shaking x = true) /\
  status_of (y_peers (q_dht s)) (ex_peer_n 11) Unknown /\ (forall q, status_of (y_peers (q_dht s)) q Unknown -> ~ In q (connects h)) /\
  exists s' h', crun (fun x => x) 100 CAPS 6881 [ex_cfg] s [CShake 3 false; CTake; CTick (fun _ => true)] = Some (s', h') /\ connects h' = [ex_peer_n 11].
Proof.
  eexists _, _. split; [vm_compute; reflexivity|]. split; [reflexivity|]. split; [discriminate|]. split; [reflexivity|]. split; [eexists; split; [reflexivity|]; auto|]. split; [vm_compute; tauto|]. split.
  - intros q Q X. vm_compute in Q, X. repeat (destruct Q as [Q|Q]; [try discriminate Q; injection Q as <-; repeat (destruct X as [X|X]; [discriminate X|]); exact X|]). exact Q.
  - eexists _, _. split; [vm_compute; reflexivity|]. reflexivity.
Qed.
Example C98_ten_example : exists s h, crun (fun x => x) 100 CAPS 6881 [ex_cfg] (ex_client ex_own) ex_all_lost = Some (s, h) /\ length (filter shaken ex_all_lost) = 10.
Proof. destruct (ex_lost (fun x => x) 100 CAPS 6881%N ex_own) as (s & h & R & _). exists s, h. split; [exact R|reflexivity]. Qed.

Print Assumptions C98_ten_in_a_lifetime.
Print Assumptions C98_for_good.
Print Assumptions C98_unreachable_partial.
Print Assumptions C98_makes_room_refuted.
