(** C140: a tick of the manager with the downloaders running in between has the
    effect of an undisturbed one. *)
From Coq Require Import List NArith ZArith Lia Bool Arith.
From Coq Require Import Init.Byte.
From Verif Require Import Base Assoc BitmapModel BitmapProofs IdModel WireModel PeersModel PeersSpec PeersProofs PeersProps ManagerModel ManagerSpec ManagerProofs PendingModel ConnModel ConnSpec ConnProps ClientModel TorrentModel TorrentSpec TorrentProps.
Import ListNotations.

(** ** Vocabulary *)
(** The rest of a tick, and what downloaders, connections, trackers and the DHT do
    meanwhile. *)
Definition in_tick (e : rev) : Prop := match e with RPick | RAdd | RTask _ | RTable _ => True | _ => False end.
(** The handle has a connection to [p]. *)
Definition connected (c : con) (p : addr) : Prop := In p (map fst (c_map c)).

(** ** Proofs *)
Lemma omget_in : forall p m, In p (map fst m) <-> omget p m <> None.
Proof.
  intros p m. unfold omget. induction m as [|[q t] m IH]; cbn [map fst In mget]; [split; [intros []|congruence]|].
  destruct (addr_eqb p q) eqn:E; [apply addr_eqb_spec in E; subst; split; [discriminate|auto]|]. rewrite <- IH. split; [intros [H|H]; [|exact H]|auto].
  subst. assert (addr_eqb p p = true) by (apply addr_eqb_spec; reflexivity). congruence.
Qed.
Lemma existsb_addr : forall p l, existsb (addr_eqb p) l = true <-> In p l.
Proof.
  intros p l. rewrite existsb_exists. split; [intros (x & I & E); apply addr_eqb_spec in E; subst; exact I|intro I; exists p; split; [exact I|apply addr_eqb_spec; reflexivity]].
Qed.
Section Tick.
Variable sha1 : bytes -> ID.
Variable checked : bool.
Notation cstep := (con_step sha1 checked).
Notation step := (tor_step sha1 checked).
Notation run := (tor_run sha1 checked).

Lemma map_kept : forall c e c' o, cstep c e = Some (c', o) -> (forall p, e <> Connect p) -> (forall p, e <> Disconnect p) -> c_map c' = c_map c.
Proof.
  intros c e c' o H N1 N2. destruct e as [p|p|p b|p i h| |p m|t b|t|t oc now|t]; cbn [con_step] in H; try (exfalso; eapply N1; reflexivity); try (exfalso; eapply N2; reflexivity).
  - destruct (c_main c); try discriminate. destruct (omget p (c_map c)); [|injection H as <- <-; reflexivity]. destruct (nth_error _ _); [|discriminate]. injection H as <- <-. reflexivity.
  - destruct (c_main c); try discriminate. destruct (omget p (c_map c)); [|injection H as <- <-; reflexivity]. destruct (nth_error _ _) as [x|]; [|discriminate]. destruct (t_dl x); [|injection H as <- <-; reflexivity].
    destruct (_ <=? _); [discriminate|]. injection H as <- <-. reflexivity.
  - destruct (c_main c); try discriminate. destruct (c_poisoned c); [injection H as <- <-; reflexivity|]. destruct (pp_add_piece _ _); injection H as <- <-; reflexivity.
  - destruct (c_main c); try discriminate. destruct (negb _); [discriminate|]. destruct (omget p (c_map c)); [|injection H as <- <-; reflexivity]. destruct (nth_error _ _); [|discriminate]. injection H as <- <-. reflexivity.
  - destruct (nth_error _ _) as [x|]; [|discriminate]. destruct (_ && _); [|discriminate]. injection H as <- <-. reflexivity.
  - destruct (nth_error _ _) as [x|]; [|discriminate]. injection H as <- <-. reflexivity.
  - destruct (nth_error _ _) as [x|]; [|discriminate]. destruct (t_dl x); [|discriminate].
    assert (K : forall y r, after_turn c t y r = (c', o) -> c_map c' = c_map c) by (intros y r E; destruct r; cbn [after_turn] in E; injection E as <- _; reflexivity).
    destruct oc; [destruct (t_cmds x)|destruct (t_blocks x)]; try discriminate; injection H as H; eapply K; exact H.
  - destruct (nth_error _ _) as [x|]; [|discriminate]. destruct (t_dl x); [|discriminate]. destruct (_ || _); [|discriminate]. injection H as <- <-. reflexivity.
Qed.
Definition same_peers (m : mgr) (c : con) : Prop := forall p, In p (m_conn m) <-> connected c p.
Definition agree (s : tor) : Prop := forall m, r_mgr s = Some m -> same_peers m (r_con s).
Lemma message_conn : forall m p c m', handle_message m p c = Val m' -> m_conn m' = m_conn m.
Proof.
  intros m p c m' H. destruct c; cbn [handle_message] in H; try discriminate; try (injection H as <-; auto; fail);
    try (injection H as <-; unfold modify; destruct (aget _ _); auto; fail).
  - unfold mark_inactive in H. destruct (aget _ _); [|injection H as <-; auto]. destruct (bm_bits _); try discriminate. cbn [rbind] in H. destruct (freq_dec _ _); try discriminate. cbn [rbind] in H. injection H as <-. auto.
  - unfold mark_inactive in H. destruct (aget _ _); [|injection H as <-; auto]. destruct (bm_bits _); try discriminate. cbn [rbind] in H. destruct (freq_dec _ _); try discriminate. cbn [rbind] in H. injection H as <-. auto.
  - unfold handle_have in H. destruct (aget _ _); [|injection H as <-; auto]. destruct (bm_change _ _ _) as [r| |]; try discriminate. cbn [rbind] in H. destruct (snd r); [injection H as <-; auto|].
    destruct (freq_inc _ _); try discriminate. cbn [rmap] in H. injection H as <-. auto.
  - unfold accept_bitfield in H. destruct (aget _ _); [|injection H as <-; auto]. destruct (_ <? _)%N; [injection H as <-; auto|]. destruct (bm_replace_data _ _); try discriminate; [|injection H as <-; auto].
    destruct (bm_bits _); try discriminate. cbn [rbind] in H. destruct (freq_add _ _ _); try discriminate. cbn [rbind] in H. injection H as <-. auto.
Qed.
Lemma mark_conn : forall m p i m', mark_ongoing m p i = Val m' -> m_conn m' = m_conn m.
Proof.
  intros m p i m' H. unfold mark_ongoing in H. destruct (match aget p (m_active m) with Some inf => Val inf | None => pi_new (bm_len (m_pieces m)) end) as [inf| |]; try discriminate. cbn [rbind] in H.
  destruct (bm_change (m_pieces m) i true) as [rp| |]; try discriminate. cbn [rbind] in H. destruct (bm_change (pi_working inf) i true) as [rw| |]; try discriminate. cbn [rbind] in H. injection H as <-. reflexivity.
Qed.
Lemma add_agree : forall ps m m' os c k, add_peers m ps = Val (m', os) -> connects sha1 checked c os = Some k -> same_peers m c -> same_peers m' k.
Proof.
  induction ps as [|p ps IH]; intros m m' os c k H K A; cbn [add_peers] in H; [injection H as <- <-; cbn [connects] in K; injection K as <-; exact A|].
  destruct (pi_new _) as [i| |]; try discriminate. cbn [rbind] in H. destruct (add_peers _ ps) as [[m1 o1]| |] eqn:E; try discriminate. cbn [rmap fst snd] in H. injection H as <- <-.
  unfold c_connect in *. destruct (existsb (addr_eqb p) (m_conn m)) eqn:X; cbn [fst snd app] in *.
  - eapply IH; [exact E|exact K|exact A].
  - cbn [connects] in K. destruct (cstep c (Connect p)) as [[c1 oo]|] eqn:S; [|discriminate]. eapply IH; [exact E|exact K|]. intro q. cbn [with_active with_conn m_conn].
    cbn [con_step] in S. destruct (c_main c); try discriminate. destruct (omget p (c_map c)) as [t|] eqn:G.
    + exfalso. assert (I : connected c p) by (apply omget_in; congruence). apply A in I. apply existsb_addr in I. congruence.
    + injection S as <- <-. unfold connected. cbn [c_map]. rewrite omget_in, omget_set. cbn [In]. destruct (addr_eqb q p) eqn:Q.
      * apply addr_eqb_spec in Q. subst. split; [discriminate|auto].
      * rewrite <- omget_in. specialize (A q). unfold connected in A. rewrite <- A. split; [intros [<-|I]; [|exact I]|auto]. assert (addr_eqb p p = true) by (apply addr_eqb_spec; reflexivity). congruence.
Qed.
Lemma take_agree : forall s m p c s' o, take sha1 checked s m p c = Some (s', o) -> same_peers m (r_con s) -> agree s'.
Proof.
  intros s m p c s' o H A. unfold take in H. destruct (received sha1 checked (r_con s) p c) as [k|] eqn:R; [|discriminate].
  assert (K : c_map k = c_map (r_con s)).
  { destruct c; cbn [received] in R; try (injection R as <-; reflexivity);
      match type of R with option_map _ (cstep _ ?e) = _ => destruct (cstep (r_con s) e) as [[k1 o1]|] eqn:S; [|discriminate] end; cbn [option_map fst] in R; injection R as <-;
      exact (map_kept _ _ _ _ S ltac:(intros; discriminate) ltac:(intros; discriminate)). }
  destruct (handle_message m p c) as [m'| |] eqn:HM; injection H as <- <-; intros m1 E; cbn [r_mgr r_con tor_dead] in *; try discriminate. injection E as <-.
  intro q. unfold connected. rewrite (message_conn _ _ _ _ HM), K. apply A.
Qed.
Lemma step_agree : forall s e s' o, step s e = Some (s', o) -> agree s -> agree s'.
Proof.
  intros s e s' o H A. destruct e as [q|p w|p| | | | |e|ks ks']; cbn [tor_step] in H.
  - destruct (q_step (r_tab s) q); try discriminate. injection H as <- <-. exact A.
  - destruct (r_mgr s) as [m|] eqn:E; [|discriminate]. destruct (r_phase s); try discriminate. destruct (con_of_message w); try discriminate. eapply take_agree; [exact H|apply A; exact E].
  - destruct (r_mgr s) as [m|] eqn:E; [|discriminate]. destruct (r_phase s); try discriminate. eapply take_agree; [exact H|apply A; exact E].
  - destruct (r_mgr s) as [m|] eqn:E; [|discriminate]. destruct (r_phase s); try discriminate. destruct (r_fin s) as [|[[p i] d] f]; [discriminate|]. eapply take_agree; [exact H|cbn [r_con]; apply A; exact E].
  - destruct (r_mgr s) as [m|] eqn:E; [|discriminate]. destruct (r_phase s); try discriminate. destruct (m_refresh m (r_tab s)) as [[[m1 t1] os]| |] eqn:R; [|injection H as <- <-; intros ? X; discriminate..].
    destruct (connects sha1 checked (r_con s) os) as [k|] eqn:K; [|discriminate]. destruct (_ <? _); injection H as <- <-; intros m2 X; cbn [r_mgr r_con tor_dead] in *; try discriminate. injection X as <-.
    unfold m_refresh in R. destruct (_ <? _); [discriminate|]. destruct (_ =? 0).
    + injection R as <- <- <-. cbn [connects] in K. injection K as <-. apply A. exact E.
    + destruct (q_batch _ _ _) as [[t2 ps]| |]; try discriminate. cbn [rbind fst snd] in R. destruct (add_peers _ ps) as [[m3 o3]| |] eqn:AP; try discriminate. cbn [rmap fst snd] in R. injection R as <- <- <-.
      eapply add_agree; [exact AP|exact K|]. intro p. apply (A m E p).
  - destruct (r_mgr s) as [m|] eqn:E; [|discriminate]. destruct (r_phase s) as [|[|n]|]; try discriminate; [injection H as <- <-; intros m1 X; injection X as <-; apply A; exact E|].
    destruct (select_piece m) as [[[[p i] h]|]| |]; [|injection H as <- <-; intros m1 X; try discriminate; injection X as <-; apply A; exact E..].
    destruct (cstep (r_con s) (Download p i h)) as [[k o1]|] eqn:S; [|discriminate]. injection H as <- <-. intros m1 X. injection X as <-. cbn [r_con]. intro q. unfold connected.
    rewrite (map_kept _ _ _ _ S); [apply A; exact E|intros; discriminate..].
  - destruct (r_mgr s) as [m|] eqn:E; [|discriminate]. destruct (r_phase s) as [| |n p i]; try discriminate. destruct (cstep (r_con s) AddPiece) as [[k o1]|] eqn:S; [|discriminate].
    destruct (c_main k); [|injection H as <- <-; intros m1 X; discriminate..]. destruct (mark_ongoing m p i) as [m1| |] eqn:MO; injection H as <- <-; intros m2 X; try discriminate. injection X as <-. cbn [r_con]. intro q. unfold connected.
    rewrite (map_kept _ _ _ _ S), (mark_conn _ _ _ _ MO); [apply A; exact E|intros; discriminate..].
  - destruct (task_event e) eqn:T; [|discriminate]. destruct (cstep (r_con s) e) as [[k o1]|] eqn:S; [|discriminate]. injection H as <- <-. intros m1 X. cbn [r_mgr r_con] in *. intro q. unfold connected.
    rewrite (map_kept _ _ _ _ S); [apply A; exact X|intros p ->; discriminate..].
  - injection H as <- <-. intros m1 X. cbn [r_mgr r_con] in *. destruct (r_mgr s) as [m|] eqn:E; [|discriminate]. cbn [option_map] in X. injection X as <-. intro q. cbn [with_active m_conn]. apply (A m E).
Qed.
Lemma run_agree : forall es s s' tr, run s es = Some (s', tr) -> agree s -> agree s'.
Proof.
  induction es as [|e es IH]; intros s s' tr H A; cbn [tor_run] in H; [injection H as <- <-; exact A|].
  destruct (step s e) as [[s1 o]|] eqn:S; [|discriminate]. destruct (run s1 es) as [[s2 t2]|] eqn:R; [|discriminate]. cbn [option_map fst snd] in H. injection H as <- <-. eapply IH; [exact R|]. eapply step_agree; eauto.
Qed.
Lemma dead_run : forall es s s' tr, run s es = Some (s', tr) -> r_mgr s = None -> r_mgr s' = None.
Proof.
  induction es as [|x es IH]; intros s1 s' t2 R D; cbn [tor_run] in R; [injection R as <- <-; exact D|].
  destruct (step s1 x) as [[s3 o3]|] eqn:S; [|discriminate]. destruct (run s3 es) as [[s4 t4]|] eqn:R4; [|discriminate]. cbn [option_map fst snd] in R. injection R as <- <-. apply (IH _ _ _ R4).
  destruct x as [q|p w|p| | | | |x|ks ks']; cbn [tor_step] in S; rewrite ?D in S; try discriminate.
  - destruct (q_step (r_tab s1) q); try discriminate. injection S as <- <-. reflexivity.
  - destruct (task_event x); [|discriminate]. destruct (cstep (r_con s1) x) as [[k1 o1]|]; [|discriminate]. injection S as <- <-. reflexivity.
  - injection S as <- <-. cbn [r_mgr]. reflexivity.
Qed.
Lemma assign_ext : forall n m f g, (forall k, k < n -> f k = g k) -> assign_loop m f n = assign_loop m g n.
Proof.
  induction n as [|n IH]; intros m f g H; [reflexivity|]. cbn [assign_loop]. destruct (select_piece m) as [[[[p i] h]|]| |]; try reflexivity. cbn [rbind]. rewrite (H n) by lia.
  destruct (start_piece m p i h (g n)) as [r1| |]; try reflexivity. cbn [rbind]. rewrite (IH _ f g); [reflexivity|]. intros; apply H; lia.
Qed.
Definition rest (m m' : mgr) (c : con) (ph : phase) : Prop :=
  match ph with
  | Waiting => m' = m
  | Picking n => exists sent out, assign_loop m sent n = Val (m', out)
  | Adding n p i => connected c p -> exists m1 sent out, mark_ongoing m p i = Val m1 /\ assign_loop m1 sent n = Val (m', out)
  end.
Lemma rest_run : forall es s s' tr m m', run s es = Some (s', tr) -> (forall e, In e es -> in_tick e) -> agree s -> r_mgr s = Some m -> r_mgr s' = Some m' -> r_phase s' = Waiting ->
  rest m m' (r_con s) (r_phase s).
Proof.
  induction es as [|e es IH]; intros s s' tr m m' H T A E E' W; cbn [tor_run] in H.
  - injection H as <- <-. rewrite W. cbn [rest]. congruence.
  - destruct (step s e) as [[s1 o]|] eqn:S; [|discriminate]. destruct (run s1 es) as [[s2 t2]|] eqn:R; [|discriminate]. cbn [option_map fst snd] in H. injection H as <- <-.
    pose proof (step_agree _ _ _ _ S A) as A1. assert (T1 : forall x, In x es -> in_tick x) by (intros; apply T; right; auto).
    assert (D : r_mgr s1 <> None).
    { intro D. rewrite (dead_run _ _ _ _ R D) in E'. discriminate. }
    specialize (T e (or_introl eq_refl)). destruct e as [q|p w|p| | | | |e|ks ks']; try (destruct T; fail); cbn [tor_step] in S.
    + destruct (q_step (r_tab s) q) as [r| |]; try discriminate. injection S as <- <-. exact (IH _ _ _ _ _ R T1 A1 E E' W).
    + rewrite E in S. destruct (r_phase s) as [|[|n]|] eqn:PH; try discriminate.
      * injection S as <- <-. pose proof (IH _ _ _ _ _ R T1 A1 eq_refl E' W) as X. cbn [r_phase rest] in X. subst. exists (fun _ => true), []. reflexivity.
      * destruct (select_piece m) as [[[[p i] h]|]| |] eqn:SP.
        -- destruct (cstep (r_con s) (Download p i h)) as [[k o1]|] eqn:CS; [|discriminate]. injection S as <- <-. pose proof (IH _ _ _ _ _ R T1 A1 eq_refl E' W) as X. cbn [r_phase r_con] in X.
           assert (Y : (exists i', c_main k = MAdd i') -> connected k p).
           { intros (i' & MM). unfold connected. rewrite (map_kept _ _ _ _ CS) by (intros; discriminate). apply omget_in. cbn [con_step] in CS. destruct (c_main (r_con s)) eqn:M0; try discriminate. destruct (omget p (c_map (r_con s))); [discriminate|]. injection CS as <- <-. congruence. }
           assert (NO : rest m m' k (Picking n) -> exists sent out, assign_loop m sent (S n) = Val (m', out)).
           { intros (sent & out & L). exists (fun j => if j =? n then false else sent j), out. cbn [assign_loop]. rewrite SP. cbn [rbind]. unfold start_piece. rewrite Nat.eqb_refl, andb_false_r. cbn [rbind fst snd app].
             rewrite (assign_ext n m _ sent), L; [reflexivity|]. intros j J. destruct (Nat.eqb_spec j n); [lia|reflexivity]. }
           cbn [rest]. destruct (c_main k) as [|j|] eqn:MK; [exact (NO X)| |exact (NO X)]. cbn [rest] in X.
           assert (CK : connected k p) by (apply Y; eauto). destruct (X CK) as (m1 & sent & out & MO & L).
           exists (fun j => if j =? n then true else sent j), (OStart p h i :: out). cbn [assign_loop]. rewrite SP. cbn [rbind]. unfold start_piece. rewrite Nat.eqb_refl, andb_true_r.
           assert (EX : existsb (addr_eqb p) (m_conn m) = true).
           { apply existsb_addr. apply (A m E). unfold connected in CK. rewrite (map_kept _ _ _ _ CS) in CK by (intros; discriminate). exact CK. }
           rewrite EX, MO. cbn [rmap rbind fst snd app]. rewrite (assign_ext n m1 _ sent), L; [reflexivity|]. intros q J. destruct (Nat.eqb_spec q n); [lia|reflexivity].
        -- injection S as <- <-. pose proof (IH _ _ _ _ _ R T1 A1 eq_refl E' W) as X. cbn [r_phase rest] in X. subst. exists (fun _ => true), []. cbn [assign_loop]. rewrite SP. reflexivity.
        -- injection S as <- <-. destruct (D eq_refl).
        -- injection S as <- <-. destruct (D eq_refl).
    + rewrite E in S. destruct (r_phase s) as [| |n p i] eqn:PH; try discriminate. destruct (cstep (r_con s) AddPiece) as [[k o1]|] eqn:CS; [|discriminate].
      destruct (c_main k); [|injection S as <- <-; destruct (D eq_refl)..]. destruct (mark_ongoing m p i) as [m1| |] eqn:MO; injection S as <- <-; [|destruct (D eq_refl)..].
      pose proof (IH _ _ _ _ _ R T1 A1 eq_refl E' W) as (sent & out & L). cbn [rest]. intros _. exists m1, sent, out. auto.
    + destruct (task_event e) eqn:TE; [|discriminate]. destruct (cstep (r_con s) e) as [[k o1]|] eqn:CS; [|discriminate]. injection S as <- <-. pose proof (IH _ _ _ _ _ R T1 A1 E E' W) as X. cbn [r_phase r_con] in X.
      destruct (r_phase s) as [| |n p i]; cbn [rest] in *; try exact X. intro C. apply X. unfold connected. rewrite (map_kept _ _ _ _ CS); [exact C|intros q ->; discriminate..].
Qed.

(** ** Theorems *)
(** While the manager lives, the handle has connections to exactly the peers the manager
    model has it connect to. *)
Theorem C140_connections : forall hs s m p, tor_reach sha1 checked hs s -> r_mgr s = Some m -> (In p (m_conn m) <-> connected (r_con s) p).
Proof.
  intros hs s m p (pl & s0 & es & tr & N & R) E. refine (run_agree _ _ _ _ R _ m E p). intros m0 E0 q. unfold tor_new in N. destruct (m_init hs) as [mi| |] eqn:MI; try discriminate. cbn [rbind] in N.
  unfold con_new in N. destruct (pp_new pl); try discriminate. cbn [rmap] in N. injection N as <-. injection E0 as <-. unfold m_init in MI. destruct (bm_new _); try discriminate. cbn [rbind] in MI. injection MI as <-. reflexivity.
Qed.
(** A tick from the interval firing to the manager waiting again, whatever tasks do in
    between: the manager's state is that after taking new peers and one undisturbed round of
    assignments. *)
Theorem C140_tick : forall hs s m s1 o es s' tr m', tor_reach sha1 checked hs s -> r_mgr s = Some m -> step s RTick = Some (s1, o) ->
  run s1 es = Some (s', tr) -> (forall e, In e es -> in_tick e) -> r_phase s' = Waiting -> r_mgr s' = Some m' ->
  exists m1 tab spawned sent started, m_refresh m (r_tab s) = Val (m1, tab, spawned) /\ m_assign m1 sent = Val (m', started) /\
    (forall p, In p (m_conn m1) <-> connected (r_con s1) p) /\ (forall p, connected (r_con s1) p <-> connected (r_con s) p \/ In (OSpawn p) spawned).
Proof.
  intros hs s m s1 o es s' tr m' RE E S R T W E'. assert (A : agree s) by (intros m0 E0 p; apply (C140_connections hs s m0 p RE E0)). pose proof (step_agree _ _ _ _ S A) as A1.
  cbn [tor_step] in S. rewrite E in S. destruct (r_phase s) eqn:PH; try discriminate. destruct (m_refresh m (r_tab s)) as [[[m1 tab] os]| |] eqn:RF.
  - destruct (connects sha1 checked (r_con s) os) as [k|] eqn:K; [|discriminate].
    assert (G : forall os c k, connects sha1 checked c os = Some k -> forall p, connected k p <-> connected c p \/ In (OSpawn p) os).
    { clear. induction os as [|x os IH]; intros c k H p; cbn [connects] in H; [injection H as <-; cbn [In]; tauto|]. destruct x as [q|q h i].
      - destruct (cstep c (Connect q)) as [[c1 oo]|] eqn:S; [|discriminate]. rewrite (IH _ _ H p). cbn [In]. assert (Q : connected c1 p <-> connected c p \/ p = q).
        { cbn [con_step] in S. destruct (c_main c); try discriminate. destruct (omget q (c_map c)) as [t|] eqn:Gq; injection S as <- <-.
          - split; [auto|]. intros [X| ->]; [exact X|]. apply omget_in. congruence.
          - unfold connected. cbn [c_map]. rewrite omget_in, omget_set. destruct (addr_eqb p q) eqn:PQ; [apply addr_eqb_spec in PQ; split; [auto|discriminate]|].
            rewrite <- omget_in. split; [auto|]. intros [X| ->]; [exact X|]. assert (addr_eqb q q = true) by (apply addr_eqb_spec; reflexivity). congruence. }
        rewrite Q. split; [intros [[X| ->]|X]; auto|intros [X|[X|X]]; auto]. injection X as ->. auto.
      - rewrite (IH _ _ H p). cbn [In]. split; [intros [X|X]; auto|intros [X|[X|X]]; auto; discriminate]. }
    assert (LV : r_mgr s1 = Some m1 /\ r_con s1 = k /\ (forall sent, m_assign m1 sent = assign_loop m1 sent (9 - N.to_nat (bm_weight (m_pieces m1)))) /\ r_phase s1 = Picking (9 - N.to_nat (bm_weight (m_pieces m1)))
      \/ r_mgr s1 = None).
    { change MAX_ACTIVE_PIECES with 9 in S. unfold m_assign. change MAX_ACTIVE_PIECES with 9. destruct (9 <? N.to_nat (bm_weight (m_pieces m1))); injection S as <- <-; [right; reflexivity|left; auto]. }
    destruct LV as [(M1 & KK & MA & P1)|DD].
    + pose proof (rest_run _ _ _ _ _ _ R T A1 M1 E' W) as X. rewrite P1 in X. destruct X as (sent & out & L). exists m1, tab, os, sent, out. split; [reflexivity|]. split; [rewrite MA; exact L|].
      split; [intro p; apply (A1 m1 M1 p)|]. rewrite KK. apply (G _ _ _ K).
    + rewrite (dead_run _ _ _ _ R DD) in E'. discriminate.
  - injection S as <- <-. rewrite (dead_run _ _ _ _ R eq_refl) in E'. discriminate.
  - injection S as <- <-. rewrite (dead_run _ _ _ _ R eq_refl) in E'. discriminate.
Qed.
End Tick.

(** Two seeders have joined: in the middle of the tick a downloader takes its turn and dies; the
    last command cannot be given to it. *)
Example C140_example : forall sha1 checked, exists s0 s tr0 m s1 o s' tr m', tor_new [ex_id] 5 = Val s0 /\ tor_run sha1 checked s0 ex_joined = Some (s, tr0) /\ r_mgr s = Some m /\
  tor_step sha1 checked s RTick = Some (s1, o) /\ tor_run sha1 checked s1 [RPick; RAdd; RPick; RAdd; RPick; RAdd; RPick; RAdd; RPick; RAdd; RPick; RAdd; RPick; RAdd; RPick; RAdd; RTask (Turn 0 true 2); RPick; RPick] = Some (s', tr) /\
  r_phase s' = Waiting /\ r_mgr s' = Some m' /\ bm_weight (m_pieces m') = 1%N.
Proof.
  intros sha1 checked. do 9 eexists. split; [vm_compute; reflexivity|]. split; [vm_compute; reflexivity|]. split; [reflexivity|]. split; [vm_compute; reflexivity|].
  split; [vm_compute; reflexivity|]. split; [reflexivity|]. split; reflexivity.
Qed.
Print Assumptions C140_connections.
Print Assumptions C140_tick.
