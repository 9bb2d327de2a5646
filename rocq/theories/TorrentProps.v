(** C100, C101, C102: the torrent manager with its downloaders. *)
From Coq Require Import List NArith ZArith Lia Bool Arith Permutation.
From Coq Require Import Init.Byte.
From Verif Require Import Base Assoc BitmapModel BitmapProofs IdModel WireModel PeersModel PeersSpec PeersProofs PeersProps ManagerModel ManagerSpec ManagerProofs ManagerProofs2 ManagerProps PendingModel PendingSpec PendingProofs ConnModel ConnSpec ConnProps ClientModel ClientInvProps TorrentModel TorrentSpec.
Import ListNotations.
Set Implicit Arguments.

Section Props.
Variable sha1 : bytes -> ID.
Variable checked : bool.
Notation cstep := (con_step sha1 checked).
Notation step := (tor_step sha1 checked).
Notation run := (tor_run sha1 checked).

(** ** The handle *)
Definition mapped (c : con) : Prop := forall p t, omget p (c_map c) = Some t -> t < length (c_tasks c).
Lemma omget_set : forall p q t m, omget q (omset p t m) = if addr_eqb q p then Some t else omget q m.
Proof. intros. destruct (addr_eqb q p) eqn:E. - apply addr_eqb_spec in E. subst. apply (mget_mset_same addr_eqb addr_eqb_spec). - apply (mget_mset_other addr_eqb addr_eqb_spec). intros ->. assert (addr_eqb p p = true) by (apply addr_eqb_spec; auto). congruence. Qed.
(** What a step of the handle does to the map, the tasks and the manager. *)
Ltac shp := repeat split; cbn [task_event] in *; intros; try discriminate; subst; auto.
Ltac nd := let p := fresh in let Y := fresh in intros p Y; try discriminate Y; subst; discriminate.
Lemma con_shape : forall c e c' o, mapped c -> cstep c e = Some (c', o) -> (forall p, e <> Disconnect p) -> mapped c' /\
  (task_event e = true -> c_main c' = c_main c /\ c_map c' = c_map c) /\
  (forall p, e = Connect p -> c_main c = MIdle /\ c_main c' = MIdle) /\
  (forall p b, e = Received p b -> c_main c = MIdle /\ c_main c' = MIdle) /\
  (forall p i h, e = Download p i h -> c_main c = MIdle /\ (c' = c \/ c_main c' = MAdd i)).
Proof.
  intros c e c' o M H ND. assert (U : forall t x, length (upd (c_tasks c) t x) = length (c_tasks c)) by (intros; apply upd_length).
  destruct e as [p|p|p b|p i h| |p m|t b|t|t oc now|t]; cbn [con_step] in H.
  - destruct (c_main c) eqn:MM; try discriminate. destruct (omget p (c_map c)) as [t|] eqn:G; injection H as <- <-.
    + split; [auto|shp].
    + split; [|shp]. intros q t Q. cbn [c_map c_tasks] in *. rewrite app_length. cbn [length]. rewrite omget_set in Q. destruct (addr_eqb q p); [injection Q as <-; lia|]. apply M in Q. lia.
  - exfalso. eapply ND. reflexivity.
  - destruct (c_main c) eqn:MM; try discriminate. destruct (omget p (c_map c)) as [t|] eqn:G; [|injection H as <- <-; split; [auto|shp]].
    destruct (nth_error (c_tasks c) t) as [x|]; [|discriminate]. injection H as <- <-. split; [|shp]. intros q t' Q. cbn [with_task c_map c_tasks] in *. rewrite U. eapply M; eauto.
  - destruct (c_main c) eqn:MM; try discriminate. destruct (omget p (c_map c)) as [t|] eqn:G; [|injection H as <- <-; split; [auto|shp]].
    destruct (nth_error (c_tasks c) t) as [x|]; [|discriminate]. destruct (t_dl x); [|injection H as <- <-; split; [auto|shp]]. destruct (_ <=? _); [discriminate|]. injection H as <- <-.
    split; [intros q t' Q; cbn [c_map c_tasks] in *; rewrite U; eapply M; eauto|]. split; [discriminate|]. split; [discriminate|]. split; [discriminate|]. intros p' i' h' E. injection E as <- <- <-. auto.
  - destruct (c_main c) eqn:MM; try discriminate. destruct (c_poisoned c); [injection H as <- <-; split; [auto|shp]|]. destruct (pp_add_piece _ _); injection H as <- <-; (split; [auto|shp]).
  - destruct (c_main c) eqn:MM; try discriminate. destruct (negb _); [discriminate|]. destruct (omget p (c_map c)) as [t|] eqn:G; [|injection H as <- <-; split; [auto|shp]].
    destruct (nth_error (c_tasks c) t) as [x|]; [|discriminate]. injection H as <- <-. split; [auto|shp].
  - destruct (nth_error (c_tasks c) t) as [x|]; [|discriminate]. destruct (_ && _); [|discriminate]. injection H as <- <-. split; [|shp]. intros q t' Q. cbn [with_task c_map c_tasks] in *. rewrite U. eapply M; eauto.
  - destruct (nth_error (c_tasks c) t) as [x|]; [|discriminate]. injection H as <- <-. split; [|shp]. intros q t' Q. cbn [with_task c_map c_tasks] in *. rewrite U. eapply M; eauto.
  - destruct (nth_error (c_tasks c) t) as [x|]; [|discriminate]. destruct (t_dl x) as [d|]; [|discriminate].
    assert (K : forall y r, after_turn c t y r = (c', o) -> mapped c' /\ c_main c' = c_main c /\ c_map c' = c_map c).
    { intros y r E. destruct r; cbn [after_turn] in E; injection E as <- _; (split; [|auto]); intros q t' Q; cbn [c_map c_tasks] in *; rewrite U; eapply M; eauto. }
    destruct oc; [destruct (t_cmds x) as [|w cs]|destruct (t_blocks x) as [|b bs]]; try discriminate; injection H as H; apply K in H; destruct H as (A & B & C); (split; [auto|shp]).
  - destruct (nth_error (c_tasks c) t) as [x|]; [|discriminate]. destruct (t_dl x) as [d|]; [|discriminate]. destruct (_ || _); [|discriminate]. injection H as <- <-.
    split; [|shp]. intros q t' Q. cbn [with_task c_map c_tasks] in *. rewrite U. eapply M; eauto.
Qed.
Lemma quiet_dropped : forall c, quiet c -> quiet (con_dropped c).
Proof.
  intros c [O W U T]. constructor; cbn [con_dropped c_pp c_tasks]; auto. intros x d I E. apply in_map_iff in I. destruct I as (y & <- & I). cbn in E. eapply T; eauto.
Qed.
Lemma mapped_dropped : forall c, mapped (con_dropped c).
Proof. intros c p t H. discriminate. Qed.
(** An idle manager can call [connect] and [recv]. *)
Lemma connect_can : forall c p, c_main c = MIdle -> exists c', cstep c (Connect p) = Some (c', []).
Proof. intros c p M. cbn [con_step]. rewrite M. destruct (omget p (c_map c)); eauto. Qed.
Lemma received_can : forall c p b, c_main c = MIdle -> mapped c -> exists c', cstep c (Received p b) = Some (c', []).
Proof.
  intros c p b M A. cbn [con_step]. rewrite M. destruct (omget p (c_map c)) as [t|] eqn:G; [|eauto]. apply A in G. apply nth_error_Some in G. destruct (nth_error (c_tasks c) t); [eauto|congruence].
Qed.
Definition idle (c : con) : Prop := quiet c /\ mapped c /\ c_main c = MIdle.
Lemma connects_idle : forall os c, idle c -> exists c', connects sha1 checked c os = Some c' /\ idle c' /\ c_poisoned c' = c_poisoned c.
Proof.
  induction os as [|o os IH]; intros c I; cbn [connects]; [eauto|]. destruct o as [p|p h i]; [|auto]. destruct I as (Q & M & D).
  destruct (@connect_can c p D) as (c1 & E). rewrite E. destruct (@con_shape _ _ _ _ M E ltac:(nd)) as (M1 & _ & D1 & _). destruct (D1 p eq_refl) as (_ & D2). destruct (@step_quiet sha1 checked _ _ _ _ Q E) as (Q1 & _).
  destruct (IH c1) as (c2 & E2 & I2 & P2); [split; auto|]. exists c2. split; [auto|]. split; [auto|]. rewrite P2. cbn [con_step] in E. rewrite D in E. destruct (omget p (c_map c)); injection E as <-; reflexivity.
Qed.
Lemma received_idle : forall c p m, idle c -> exists c', received sha1 checked c p m = Some c' /\ idle c' /\ c_poisoned c' = c_poisoned c.
Proof.
  intros c p m I. assert (K : forall b, exists c', option_map fst (cstep c (Received p b)) = Some c' /\ idle c' /\ c_poisoned c' = c_poisoned c).
  { intro b. destruct I as (Q & M & D). destruct (@received_can c p b D M) as (c1 & E). rewrite E. cbn [option_map fst]. exists c1. split; [auto|]. destruct (@con_shape _ _ _ _ M E ltac:(nd)) as (M1 & _ & _ & D1 & _).
    destruct (D1 p b eq_refl) as (_ & D2). destruct (@step_quiet sha1 checked _ _ _ _ Q E) as (Q1 & _). split; [split; auto|]. cbn [con_step] in E. rewrite D in E.
    destruct (omget p (c_map c)) as [t|]; [|injection E as <-; reflexivity]. destruct (nth_error (c_tasks c) t); [|discriminate]. injection E as <-. reflexivity. }
  destruct m; cbn [received]; auto; eauto.
Qed.

(** ** Invariant *)
Definition weight (m : mgr) : nat := N.to_nat (bm_weight (m_pieces m)).
Definition mgr_ok (n : nat) (m : mgr) (c : con) (ph : phase) : Prop :=
  inv n m /\ (forall i, piece_inb (m_local m) i = false) /\
  match ph with
  | Waiting => c_main c = MIdle
  | Picking k => c_main c = MIdle /\ weight m + k <= 9
  | Adding k p i => c_main c = MAdd i /\ weight m + S k <= 9 /\ In p (map fst (m_active m)) /\ i < n
  end.
Record tinv (n : nat) (s : tor) : Prop := mk_tinv {
  v_quiet : quiet (r_con s); v_mapped : mapped (r_con s); v_fin : r_fin s = []; v_tab : NoDup (map fst (r_tab s));
  v_mgr : match r_mgr s with Some m => mgr_ok n m (r_con s) (r_phase s) | None => c_main (r_con s) = MDead /\ r_phase s = Waiting end }.

Lemma add_peers_local : forall ps m m' o, add_peers m ps = Val (m', o) -> m_local m' = m_local m.
Proof.
  induction ps as [|p ps IH]; intros m m' o H; cbn [add_peers] in H; [injection H as <- _; auto|]. destruct (pi_new _) as [i| |]; try discriminate. cbn [rbind] in H.
  destruct (add_peers _ ps) as [[m1 o1]| |] eqn:A; try discriminate. cbn [rmap fst snd] in H. injection H as <- _. apply IH in A. rewrite A. reflexivity.
Qed.
Lemma refresh_local : forall m t m' t' o, m_refresh m t = Val (m', t', o) -> m_local m' = m_local m.
Proof.
  intros m t m' t' o H. unfold m_refresh in H. destruct (_ <? _); [discriminate|]. destruct (_ =? 0); [injection H as <- _ _; auto|]. destruct (q_batch _ _ _) as [[t1 ps]| |]; try discriminate. cbn [rbind fst snd] in H.
  destruct (add_peers _ ps) as [[m1 o1]| |] eqn:A; try discriminate. cbn [rmap fst snd] in H. injection H as <- _ _. apply add_peers_local in A. rewrite A. reflexivity.
Qed.
Lemma message_local : forall m p c m', handle_message m p c = Val m' -> m_local m' = m_local m /\ m_pieces m' = m_pieces m.
Proof.
  intros m p c m' H. destruct c; cbn [handle_message] in H; try discriminate; try (injection H as <-; auto; fail);
    try (injection H as <-; unfold modify; destruct (aget _ _); auto; fail).
  - unfold mark_inactive in H. destruct (aget _ _); [|injection H as <-; auto]. destruct (bm_bits _); try discriminate. cbn [rbind] in H. destruct (freq_dec _ _); try discriminate. cbn [rbind] in H. injection H as <-. auto.
  - unfold mark_inactive in H. destruct (aget _ _); [|injection H as <-; auto]. destruct (bm_bits _); try discriminate. cbn [rbind] in H. destruct (freq_dec _ _); try discriminate. cbn [rbind] in H. injection H as <-. auto.
  - unfold handle_have in H. destruct (aget _ _); [|injection H as <-; auto]. destruct (bm_change _ _ _) as [r| |]; try discriminate. cbn [rbind] in H. destruct (snd r); [injection H as <-; auto|].
    destruct (freq_inc _ _); try discriminate. cbn [rmap] in H. injection H as <-. auto.
  - unfold accept_bitfield in H. destruct (aget _ _); [|injection H as <-; auto]. destruct (_ <? _)%N; [injection H as <-; auto|]. destruct (bm_replace_data _ _); try discriminate; [|injection H as <-; auto].
    destruct (bm_bits _); try discriminate. cbn [rbind] in H. destruct (freq_add _ _ _); try discriminate. cbn [rbind] in H. injection H as <-. auto.
Qed.
Lemma start_tinv : forall hs pl s, tor_new hs pl = Val s -> tinv (length hs) s /\ c_poisoned (r_con s) = false.
Proof.
  intros hs pl s H. unfold tor_new in H. destruct (m_init hs) as [m| |] eqn:E; try discriminate. cbn [rbind] in H. destruct (con_new pl) as [c| |] eqn:C; try discriminate. cbn [rmap] in H. injection H as <-.
  pose proof (@start_quiet checked _ _ C) as Q. destruct (inv_init _ E) as (I & _). unfold con_new in C. destruct (pp_new pl); try discriminate. injection C as <-. split; [|reflexivity].
  constructor; cbn [r_con r_fin r_tab r_mgr r_phase]; auto; [intros p t X; discriminate|constructor|]. split; [auto|]. split; [|reflexivity].
  intro i. unfold m_init in E. destruct (bm_new (length hs)) as [b| |] eqn:B; try discriminate. cbn [rbind] in E. injection E as <-. cbn [m_local]. apply bm_ok_new in B. destruct B as (_ & B & _). rewrite inb_nth, B. apply nth_repeat.
Qed.
Lemma dead_tinv : forall n s c, NoDup (map fst (r_tab s)) -> quiet c -> tinv n (tor_dead s c).
Proof. intros n s c N Q. constructor; cbn [tor_dead r_con r_fin r_tab r_mgr]; auto. - apply quiet_dropped; auto. - apply mapped_dropped. Qed.

(** What a step is, in a state of the invariant: the new state satisfies it,
    nothing comes out, and the manager ends only in two ways. *)
Definition fatal (s : tor) (e : rev) : Prop :=
  (exists m p w c, r_mgr s = Some m /\ e = RMsg p w /\ con_of_message w = Val c /\ forall m', handle_message m p c <> Val m') \/
  (e = RAdd /\ c_poisoned (r_con s) = true).
Lemma take_spec : forall n s m p c, tinv n s -> r_mgr s = Some m -> r_phase s = Waiting -> exists s', take sha1 checked s m p c = Some (s', []) /\ tinv n s' /\
  (r_mgr s' = None \/ exists m', handle_message m p c = Val m' /\ r_mgr s' = Some m').
Proof.
  intros n s m p c [Q M F T V] E PH. rewrite E in V. rewrite PH in V. destruct V as (I & L & D). unfold take. destruct (@received_idle (r_con s) p c) as (k & K & (Q1 & M1 & D1) & P1); [split; auto|]. rewrite K.
  destruct (handle_message m p c) as [m'| |] eqn:HM.
  - eexists. split; [reflexivity|]. split; [|right; eauto]. constructor; cbn [r_con r_fin r_tab r_mgr r_phase]; auto. destruct (message_local _ _ _ HM) as (L1 & L2). split; [apply (@message_inv n m p c m' I HM)|]. split; [rewrite L1; auto|auto].
  - eexists. split; [reflexivity|]. split; [|auto]. apply dead_tinv; auto.
  - eexists. split; [reflexivity|]. split; [|auto]. apply dead_tinv; auto.
Qed.
Lemma add_never_panics : forall c i c' o, quiet c -> c_poisoned c = false -> c_main c = MAdd i -> cstep c AddPiece = Some (c', o) -> c_main c' = MIdle.
Proof.
  intros c i c' o [O W U T] P M H. cbn [con_step] in H. rewrite M, P in H. destruct (pp_add_piece (c_pp c) i) as [q| |] eqn:A; injection H as <- _; auto. exfalso.
  destruct (in_dec Nat.eq_dec i (map fst (pp_data (c_pp c)))) as [J|J]; [rewrite add_piece_known in A by auto; discriminate|]. destruct (Nat.lt_ge_cases (n_in_flight (c_pp c)) 10) as [L|L]; [rewrite add_piece_new in A by auto; discriminate|].
  rewrite add_piece_full in A by auto. discriminate.
Qed.
Lemma finished_nil : forall ts, finished ts [] = [].
Proof. reflexivity. Qed.
Lemma step_spec : forall n s e s' o, tinv n s -> step s e = Some (s', o) -> tinv n s' /\ o = [] /\ (r_mgr s' = None -> r_mgr s = None \/ fatal s e).
Proof.
  intros n s e s' o I H. pose proof I as [Q M F T V]. destruct e as [q|p w|p| | | | |e|ks ks']; cbn [tor_step] in H.
  - destruct (@C27_total (r_tab s) q T) as (t' & o' & E & N'). rewrite E in H. injection H as <- <-. split; [|split; [auto|cbn; auto]]. constructor; cbn [r_con r_fin r_tab r_mgr r_phase fst]; auto.
  - destruct (r_mgr s) as [m|] eqn:EM; [|discriminate]. destruct (r_phase s) eqn:EP; try discriminate. destruct (con_of_message w) as [c| |] eqn:CW; try discriminate.
    destruct (@take_spec n s m p c I EM EP) as (s1 & K & I1 & R1). rewrite K in H. injection H as <- <-. split; [auto|]. split; [auto|]. intro D. right. left. exists m, p, w, c. split; [auto|]. split; [auto|]. split; [auto|].
    intros m' HM. destruct R1 as [R1|(m1 & _ & R1)]; [|congruence]. unfold take in K. destruct (received _ _ _ _ _); [|discriminate]. rewrite HM in K. injection K as <-. discriminate.
  - destruct (r_mgr s) as [m|] eqn:EM; [|discriminate]. destruct (r_phase s) eqn:EP; try discriminate. destruct (@take_spec n s m p CUnreachable I EM EP) as (s1 & K & I1 & R1). rewrite K in H. injection H as <- <-. split; [auto|]. split; [auto|].
    intro D. exfalso. unfold take in K. destruct (received _ _ _ _ _); [|discriminate]. cbn [handle_message] in K. destruct V as (IM & _). destruct (@inactive_spec n m p UnableToConnect IM) as (m1 & E1 & _). rewrite E1 in K. injection K as <-. discriminate.
  - destruct (r_mgr s); [|discriminate]. destruct (r_phase s); try discriminate. rewrite F in H. discriminate.
  - destruct (r_mgr s) as [m|] eqn:EM; [|discriminate]. destruct (r_phase s) eqn:EP; try discriminate. destruct V as (IM & L & D). destruct (@refresh_spec n m (r_tab s) IM T) as (m1 & t1 & os & E & I1 & N1 & P1 & _). rewrite E in H.
    destruct (@connects_idle os (r_con s)) as (k & K & (Q1 & M1 & D1) & _); [split; auto|]. rewrite K in H. pose proof (i_weight I1) as W1. change MAX_ACTIVE_PIECES with 9 in H.
    destruct (Nat.ltb_spec 9 (N.to_nat (bm_weight (m_pieces m1)))); [lia|]. injection H as <- <-. split; [|split; [auto|cbn; discriminate]]. constructor; cbn [r_con r_fin r_tab r_mgr r_phase]; auto.
    split; [auto|]. split; [rewrite (refresh_local _ _ E); auto|]. split; [auto|]. unfold weight. assert (W2 : N.to_nat (bm_weight (m_pieces m1)) <= 9) by lia. clear - W2. revert W2. generalize (N.to_nat (bm_weight (m_pieces m1))). intros w W2. do 10 (destruct w as [|w]; [lia|]). lia.
  - destruct (r_mgr s) as [m|] eqn:EM; [|discriminate]. destruct (r_phase s) as [|k|] eqn:EP; try discriminate. destruct V as (IM & L & D & WK). destruct k as [|k].
    + injection H as <- <-. split; [|split; [auto|cbn; discriminate]]. constructor; cbn [r_con r_fin r_tab r_mgr r_phase]; auto. split; [auto|]. split; auto.
    + destruct (select_exact IM) as (r & SP & X). rewrite SP in H. destruct r as [[[p i] h]|]; [|injection H as <- <-; split; [constructor; cbn [r_con r_fin r_tab r_mgr r_phase]; auto; split; [auto|]; split; auto|split; [auto|cbn; discriminate]]].
      destruct (cstep (r_con s) (Download p i h)) as [[c1 o1]|] eqn:CS; [|discriminate]. injection H as <- <-. split; [|split; [auto|cbn; discriminate]].
      destruct (@con_shape _ _ _ _ M CS ltac:(nd)) as (M1 & _ & _ & _ & DW). destruct (DW _ _ _ eq_refl) as (_ & DW'). destruct (@step_quiet sha1 checked _ _ _ _ Q CS) as (Q1 & _).
      constructor; cbn [r_con r_fin r_tab r_mgr r_phase]; auto. destruct DW' as [->|DW']; [rewrite D|rewrite DW']; (split; [auto|]); (split; [auto|]).
      * split; [auto|lia].
      * destruct X as (WA & _ & _ & (inf & A1 & _)). split; [auto|]. split; [lia|]. split; [apply in_map_iff; exists (p, inf); auto|]. destruct WA as (_ & WA & _). rewrite (bo_len (i_local IM)) in WA. auto.
  - destruct (r_mgr s) as [m|] eqn:EM; [|discriminate]. destruct (r_phase s) as [| |k p i] eqn:EP; try discriminate. destruct V as (IM & L & D & WK & IA & IN).
    destruct (cstep (r_con s) AddPiece) as [[c1 o1]|] eqn:CS; [|discriminate]. destruct (@con_shape _ _ _ _ M CS ltac:(nd)) as (M1 & _). destruct (@step_quiet sha1 checked _ _ _ _ Q CS) as (Q1 & _).
    assert (W8 : (bm_weight (m_pieces m) <= 8)%N) by (unfold weight in WK; lia).
    destruct (@mark_spec n m p i IM IA IN W8) as (m1 & E1 & I1 & _ & _ & _ & _ & L1 & _ & W1 & _). rewrite E1 in H.
    assert (DEAD : c_main c1 <> MIdle -> c_poisoned (r_con s) = true). { intro X. destruct (c_poisoned (r_con s)) eqn:P; auto. exfalso. apply X. exact (@add_never_panics _ _ _ _ Q P D CS). }
    destruct (c_main c1) eqn:MC; injection H as <- <-.
    + split; [|split; [auto|cbn; discriminate]]. constructor; cbn [r_con r_fin r_tab r_mgr r_phase]; auto. split; [auto|]. split; [rewrite L1; auto|]. split; [auto|]. unfold weight in *. lia.
    + split; [apply dead_tinv; auto|]. split; [auto|]. intros _. right. right. split; [auto|]. apply DEAD. discriminate.
    + split; [apply dead_tinv; auto|]. split; [auto|]. intros _. right. right. split; [auto|]. apply DEAD. discriminate.
  - destruct (task_event e) eqn:TE; [|discriminate]. destruct (cstep (r_con s) e) as [[c1 o1]|] eqn:CS; [|discriminate]. injection H as <- <-. destruct (@con_shape _ _ _ _ M CS ltac:(nd)) as (M1 & KE & _). destruct (KE TE) as (KE' & _).
    destruct (@step_quiet sha1 checked _ _ _ _ Q CS) as (Q1 & KO). assert (o1 = []) as ->. { destruct o1 as [|x o1]; [auto|]. destruct (KO x (or_introl eq_refl)) as (p & m & t & -> & _). discriminate. }
    split; [|split; [auto|cbn; auto]]. constructor; cbn [r_con r_fin r_tab r_mgr r_phase]; auto.
    + destruct (r_mgr s); auto. rewrite F. reflexivity.
    + destruct (r_mgr s); [|destruct V; split; [congruence|auto]]. destruct V as (IM & L & D). split; [auto|]. split; [auto|]. rewrite KE'. exact D.
  - injection H as <- <-. split; [|split; [auto|cbn]]. 2:{ destruct (r_mgr s); cbn; [discriminate|auto]. }
    constructor; cbn [r_con r_fin r_tab r_mgr r_phase]; auto. { eapply Permutation_NoDup; [apply Permutation_map; apply reorder_perm|auto]. }
    destruct (r_mgr s) as [m|]; cbn [option_map]; auto. destruct V as (IM & L & D). split; [apply (inv_perm IM (reorder_perm ks _))|]. split; [exact L|]. destruct (r_phase s); auto. destruct D as (D1 & D2 & D3 & D4). split; [auto|]. split; [auto|]. split; [|auto].
    cbn [with_active m_active]. eapply Permutation_in; [apply Permutation_map; apply reorder_perm|auto].
Qed.
Lemma run_cons_t : forall s e es r, run s (e :: es) = Some r -> exists s' o tr, step s e = Some (s', o) /\ run s' es = Some (fst r, tr) /\ snd r = (e, o) :: tr.
Proof.
  intros s e es r H. cbn [tor_run] in H. destruct (step s e) as [[s' o]|]; [|discriminate]. destruct (run s' es) as [[s'' tr]|] eqn:R; [|discriminate]. cbn in H. injection H as <-. exists s', o, tr. auto.
Qed.
Lemma run_tinv : forall n es s s' tr, tinv n s -> run s es = Some (s', tr) -> tinv n s' /\ forall e o, In (e, o) tr -> o = [].
Proof.
  induction es as [|e es IH]; intros s s' tr I H; [cbn in H; injection H as <- <-; split; [auto|intros ? ? []]|]. apply run_cons_t in H. destruct H as (s1 & o & t1 & S & R & E). cbn [fst snd] in *. subst tr.
  destruct (@step_spec _ _ _ _ _ I S) as (I1 & -> & _). destruct (IH _ _ _ I1 R) as (I2 & K). split; [auto|]. intros e' o' [X|X]; [congruence|eauto].
Qed.

(** ** Poisoning *)
Lemma take_pass_panic : forall f now ps m, take_pass f None now ps m = Panic -> exists k, In k ps /\ In k (map fst m).
Proof.
  intros f now ps m. induction m as [|[k p] m IH]; intro H; cbn [take_pass] in H; [discriminate|]. destruct (existsb (Nat.eqb k) ps) eqn:E.
  - apply existsb_exists in E. destruct E as (k' & I & E). apply Nat.eqb_eq in E. subst k'. exists k. cbn. auto.
  - destruct (take_pass f None now ps m); try discriminate. destruct IH as (k' & A & B); auto. exists k'. cbn. auto.
Qed.
Lemma poison_from : forall c e c' o, quiet c -> c_poisoned c = false -> cstep c e = Some (c', o) -> c_poisoned c' = true ->
  exists t oc now k, e = Turn t oc now /\ in_flight (c_pp c) k /\ assigned c t k.
Proof.
  intros c e c' o Q P H P'. pose proof Q as [O W U T]. destruct e as [p|p|p b|p i h| |p m|t b|t|t oc now|t]; cbn [con_step] in H;
    try (destruct (c_main c); try discriminate; repeat match type of H with (match ?x with _ => _ end) = _ => destruct x; try discriminate end; injection H as <- _; cbn in P'; congruence).
  - exfalso. destruct (c_main c) as [|i|] eqn:M; try discriminate. assert (X : c_main c' = MIdle) by (eapply (@add_never_panics c i c' o); eauto; cbn [con_step]; rewrite M; exact H).
    rewrite P in H. destruct (pp_add_piece _ _); injection H as <- _; cbn in *; congruence.
  - destruct (nth_error (c_tasks c) t) as [x|] eqn:N; [|discriminate]. destruct (t_dl x) as [d|] eqn:D; [|discriminate]. pose proof (T _ _ (in_nth _ _ N) D) as B0.
    assert (K : forall y e, after_turn c t y (dl_turn sha1 checked (c_poisoned c) now (c_pp c) d e) = (c', o) -> exists d1 k, dl_handle sha1 checked (c_pp c) d e = Val (c_pp c, d1, []) /\ In k (keys (dl_pieces d1)) /\ in_flight (c_pp c) k).
    { intros y e E. assert (TU : exists d1, dl_handle sha1 checked (c_pp c) d e = Val (c_pp c, d1, []) /\ wants_lock (c_pp c) d e = None).
      { destruct e as [b|hh i|i]; cbn [dl_handle wants_lock]; eauto. unfold dl_block. destruct (negb _); eauto. destruct (dmget _ _); eauto. rewrite B0. cbn. eauto. }
      destruct TU as (d1 & E1 & E2). unfold dl_turn in E. rewrite E1, E2, P in E. destruct (_ =? 0); [|cbn [after_turn] in E; injection E as <- _; cbn in P'; congruence].
      destruct (pp_take (c_pp c) now (keys (dl_pieces d1)) (dl_blocks d1) (dl_cap d1)) as [[[s2 bl] cp]| |] eqn:TK; [cbn [after_turn] in E; injection E as <- _; cbn in P'; congruence| |].
      - exfalso. unfold pp_take in TK. rewrite O in TK. destruct (take_pass is_unbegun None now (keys (dl_pieces d1)) (pp_data (c_pp c))) as [r1| |] eqn:T1; cbn [rbind] in TK; try discriminate; [|eapply take_pass_none_total; eauto].
        destruct (_ =? _); [discriminate|]. destruct (take_pass (is_expired now) None now (keys (dl_pieces d1)) (fst r1)) as [r2| |] eqn:T2; try discriminate. eapply take_pass_none_total; eauto.
      - unfold pp_take in TK. rewrite O in TK. destruct (take_pass is_unbegun None now (keys (dl_pieces d1)) (pp_data (c_pp c))) as [r1| |] eqn:T1; cbn [rbind] in TK; try discriminate.
        + pose proof (take_pass_none _ _ _ _ T1) as ->. cbn [fst] in TK. destruct (_ =? _); [discriminate|]. destruct (take_pass (is_expired now) None now (keys (dl_pieces d1)) (pp_data (c_pp c))) as [r2| |] eqn:T2; try discriminate.
          apply take_pass_panic in T2. destruct T2 as (k & A & B). exists d1, k. auto.
        + apply take_pass_panic in T1. destruct T1 as (k & A & B). exists d1, k. auto. }
    exists t, oc, now. destruct oc; [destruct (t_cmds x) as [|w cs] eqn:CM|destruct (t_blocks x) as [|b bs]]; try discriminate; injection H as H; apply K in H; destruct H as (d1 & k & HD & A & B); exists k; (split; [auto|]); (split; [auto|]); exists x, d; (split; [auto|]); (split; [auto|]).
    + destruct w as [hh i|i]; cbn [cmd_event dl_handle] in HD; injection HD as <-; cbn [dl_pieces] in A.
      * unfold keys, dmset in A. fold (keys (mset Nat.eqb i hh (dl_pieces d))) in A. rewrite keys_mset in A. destruct (mhas _ _ _); [auto|]. apply in_app_or in A. destruct A as [A|[<-|[]]]; [auto|]. right. rewrite CM. exists hh. left. auto.
      * left. unfold keys, dmdel in *. apply in_map_iff in A. destruct A as (y & E & A). apply in_map_iff. exists y. split; [auto|]. eapply mdel_incl; eauto.
    + left. assert (d1 = d) as ->; [|auto]. cbn [dl_handle] in HD. unfold dl_block in HD. destruct (negb _); [congruence|]. destruct (dmget _ _); [|congruence]. rewrite B0 in HD. cbn in HD. congruence.
Qed.
Lemma reach_tinv : forall hs s, tor_reach sha1 checked hs s -> tinv (length hs) s.
Proof. intros hs s (pl & s0 & es & tr & N & R). eapply run_tinv; [|exact R]. eapply start_tinv; eauto. Qed.

(** ** C100 *)
(** Full statement fails, in every run: no piece is ever held, nothing is ever
    asked of any peer, no finished piece ever reaches the manager. *)
Theorem C100_nothing_always : forall hs pl s0 es s tr, tor_new hs pl = Val s0 -> run s0 es = Some (s, tr) ->
  (forall i, ~ held s i) /\ (forall e o, In (e, o) tr -> o = []) /\ r_fin s = [].
Proof.
  intros hs pl s0 es s tr N R. destruct (@run_tinv (length hs) _ _ _ _ (proj1 (@start_tinv _ _ _ N)) R) as (I & O). split; [|split; [auto|apply (v_fin I)]].
  intros i (m & E & P). pose proof (v_mgr I) as V. rewrite E in V. destruct V as (_ & L & _). apply inb_in in P. rewrite L in P. discriminate.
Qed.

(** ** C101 *)
(** The manager ends only by a message it cannot take (C33) or in starting a
    piece after a downloader has panicked... *)
Theorem C101_causes : forall hs s e s' o, tor_reach sha1 checked hs s -> step s e = Some (s', o) -> r_mgr s <> None -> r_mgr s' = None ->
  (exists m p w c, r_mgr s = Some m /\ e = RMsg p w /\ con_of_message w = Val c /\ forall m', handle_message m p c <> Val m') \/
  (e = RAdd /\ c_poisoned (r_con s) = true).
Proof. intros hs s e s' o R S A D. destruct (@step_spec _ _ _ _ _ (reach_tinv R) S) as (_ & _ & K). destruct (K D) as [X|X]; [tauto|exact X]. Qed.
(** ... ordinary messages are not of that kind, unless an availability count
    overflows... *)
Theorem C101_seeders_harmless_partial : forall hs s p w s' o m, tor_reach sha1 checked hs s -> step s (RMsg p w) = Some (s', o) -> r_mgr s = Some m ->
  seeder_message (length hs) w -> (forall j, (nth j (m_freq m) 0 < 65535)%N) -> r_mgr s' <> None.
Proof.
  intros hs s p w s' o m R S E SM F D. destruct (@C101_causes _ _ _ _ _ R S) as [(m1 & p1 & w1 & c & E1 & X & CW & B)|(X & _)]; [congruence|auto| |discriminate]. injection X as <- <-. rewrite E in E1. injection E1 as <-.
  pose proof (v_mgr (reach_tinv R)) as V. rewrite E in V. destruct V as (I & _). destruct w as [| | | | |v|v|v|v|v|v]; cbn in SM; try contradiction; cbn [con_of_message] in CW; injection CW as <-; cbn [handle_message] in B; try (eapply B; reflexivity).
  - destruct (@have_spec (length hs) m p (N.to_nat v) I) as (m' & H); [intros; lia|apply F|]. eapply B; eauto.
  - destruct (@bitfield_total (length hs) m p v I) as (m' & H); [intro; apply F|]. eapply B; eauto.
Qed.
(** ... and a downloader panics (holding the lock) only because of a piece it
    was told to fetch. *)
Theorem C101_poison_source : forall hs s e s' o, tor_reach sha1 checked hs s -> step s e = Some (s', o) -> c_poisoned (r_con s) = false -> c_poisoned (r_con s') = true ->
  exists t oc now k, e = RTask (Turn t oc now) /\ in_flight (c_pp (r_con s)) k /\ assigned (r_con s) t k.
Proof.
  intros hs s e s' o R S P P'. pose proof (reach_tinv R) as I. pose proof I as [Q M F T V]. destruct e as [q|p w|p| | | | |e|ks ks']; cbn [tor_step] in S.
  - destruct (q_step _ _); try discriminate. injection S as <- _. cbn in P'. congruence.
  - exfalso. destruct (r_mgr s) as [m|]; [|discriminate]. destruct (r_phase s) eqn:PH; try discriminate. destruct (con_of_message w) as [c| |]; try discriminate. unfold take in S. destruct V as (_ & _ & V).
    destruct (@received_idle (r_con s) p c) as (k & K & _ & PK); [split; auto|]. rewrite K in S. destruct (handle_message m p c); injection S as <- _; cbn in P'; congruence.
  - exfalso. destruct (r_mgr s) as [m|]; [|discriminate]. destruct (r_phase s) eqn:PH; try discriminate. unfold take in S. destruct V as (_ & _ & V).
    destruct (@received_idle (r_con s) p CUnreachable) as (k & K & _ & PK); [split; auto|]. rewrite K in S. destruct (handle_message m p CUnreachable); injection S as <- _; cbn in P'; congruence.
  - rewrite F in S. destruct (r_mgr s); [|discriminate]. destruct (r_phase s); discriminate.
  - exfalso. destruct (r_mgr s) as [m|]; [|discriminate]. destruct (r_phase s) eqn:PH; try discriminate. destruct V as (_ & _ & V). destruct (m_refresh m (r_tab s)) as [[[m1 t1] os]| |]; [|injection S as <- _; cbn in P'; congruence..].
    destruct (@connects_idle os (r_con s)) as (k & K & _ & PK); [split; auto|]. rewrite K in S. destruct (_ <? _); injection S as <- _; cbn in P'; congruence.
  - exfalso. destruct (r_mgr s) as [m|]; [|discriminate]. destruct (r_phase s) as [|[|n]|]; try discriminate; [injection S as <- _; cbn in P'; congruence|]. destruct (select_piece m) as [[[[p i] h]|]| |]; try (injection S as <- _; cbn in P'; congruence).
    destruct (cstep (r_con s) (Download p i h)) as [[c1 o1]|] eqn:CS; [|discriminate]. injection S as <- _. cbn in P'. destruct (@poison_from _ _ _ _ Q P CS P') as (t & oc & now & k & X & _). discriminate.
  - exfalso. destruct (r_mgr s) as [m|]; [|discriminate]. destruct (r_phase s); try discriminate. destruct (cstep (r_con s) AddPiece) as [[c1 o1]|] eqn:CS; [|discriminate].
    assert (PC : c_poisoned c1 = true) by (destruct (c_main c1); [destruct (mark_ongoing m p i)| |]; injection S as <- _; exact P'). destruct (@poison_from _ _ _ _ Q P CS PC) as (t & oc & now & k & X & _). discriminate.
  - destruct (task_event e); [|discriminate]. destruct (cstep (r_con s) e) as [[c1 o1]|] eqn:CS; [|discriminate]. injection S as <- _. cbn in P'. destruct (@poison_from _ _ _ _ Q P CS P') as (t & oc & now & k & -> & A & B). exists t, oc, now, k. auto.
  - injection S as <- _. cbn in P'. congruence.
Qed.
(** That does happen: every fifth turn with such a piece in flight is fatal. *)
Theorem C101_turn_fatal : forall hs s t x d k on_cmd now s' o, tor_reach sha1 checked hs s ->
  nth_error (c_tasks (r_con s)) t = Some x -> t_dl x = Some d -> dl_counter d mod 5 = 0 -> in_flight (c_pp (r_con s)) k ->
  (In k (keys (dl_pieces d)) /\ (forall i cs, t_cmds x <> StopPiece i :: cs) \/ exists hh cs, t_cmds x = StartPiece hh k :: cs /\ on_cmd = true) ->
  step s (RTask (Turn t on_cmd now)) = Some (s', o) -> c_poisoned (r_con s') = true.
Proof.
  intros hs s t x d k oc now s' o R N D C F A S. cbn [tor_step task_event] in S. destruct (cstep (r_con s) (Turn t oc now)) as [[c1 o1]|] eqn:CS; [|discriminate]. injection S as <- _. cbn [r_con].
  eapply turn_fatal; eauto. apply (v_quiet (reach_tinv R)).
Qed.
Lemma stays_poisoned : forall n s e s' o, tinv n s -> c_poisoned (r_con s) = true -> step s e = Some (s', o) -> c_poisoned (r_con s') = true /\
  forall m m', r_mgr s = Some m -> r_mgr s' = Some m' -> m_pieces m' = m_pieces m.
Proof.
  intros n s e s' o I P S. pose proof I as [Q M F T V]. destruct e as [q|p w|p| | | | |e|ks ks']; cbn [tor_step] in S.
  - destruct (q_step _ _); try discriminate. injection S as <- _. cbn. split; [auto|congruence].
  - destruct (r_mgr s) as [m|]; [|discriminate]. destruct (r_phase s) eqn:PH; try discriminate. destruct (con_of_message w) as [c| |]; try discriminate. unfold take in S. destruct V as (_ & _ & V).
    destruct (@received_idle (r_con s) p c) as (k & K & _ & PK); [split; auto|]. rewrite K in S. destruct (handle_message m p c) eqn:HM; injection S as <- _; cbn; (split; [congruence|]); intros ? ? X Y; try discriminate. injection X as <-. injection Y as <-. apply (message_local _ _ _ HM).
  - destruct (r_mgr s) as [m|]; [|discriminate]. destruct (r_phase s) eqn:PH; try discriminate. unfold take in S. destruct V as (_ & _ & V).
    destruct (@received_idle (r_con s) p CUnreachable) as (k & K & _ & PK); [split; auto|]. rewrite K in S. destruct (handle_message m p CUnreachable) eqn:HM; injection S as <- _; cbn; (split; [congruence|]); intros ? ? X Y; try discriminate. injection X as <-. injection Y as <-. apply (message_local _ _ _ HM).
  - rewrite F in S. destruct (r_mgr s); [|discriminate]. destruct (r_phase s); discriminate.
  - destruct (r_mgr s) as [m|]; [|discriminate]. destruct (r_phase s) eqn:PH; try discriminate. destruct V as (IM & _ & V). destruct (@refresh_spec n m (r_tab s) IM T) as (m1 & t1 & os & E & _ & _ & P1 & _). rewrite E in S.
    destruct (@connects_idle os (r_con s)) as (k & K & _ & PK); [split; auto|]. rewrite K in S. destruct (_ <? _); injection S as <- _; cbn; (split; [congruence|]); intros ? ? X Y; try discriminate. congruence.
  - destruct (r_mgr s) as [m|]; [|discriminate]. destruct (r_phase s) as [|[|k]|]; try discriminate; [injection S as <- _; cbn; split; [auto|congruence]|]. destruct (select_piece m) as [[[[p i] h]|]| |]; try (injection S as <- _; cbn; split; [auto|congruence]).
    destruct (cstep (r_con s) (Download p i h)) as [[c1 o1]|] eqn:CS; [|discriminate]. injection S as <- _. cbn. split; [|congruence]. apply (proj1 (@C87_poison_spreads sha1 checked _ _ _ _ CS)); auto.
  - destruct (r_mgr s) as [m|]; [|discriminate]. destruct (r_phase s); try discriminate. destruct (cstep (r_con s) AddPiece) as [[c1 o1]|] eqn:CS; [|discriminate]. destruct (proj1 (@C87_poison_spreads sha1 checked _ _ _ _ CS) P) as (P1 & D). rewrite (D eq_refl) in S. injection S as <- _. cbn. split; [auto|discriminate].
  - destruct (task_event e); [|discriminate]. destruct (cstep (r_con s) e) as [[c1 o1]|] eqn:CS; [|discriminate]. injection S as <- _. cbn. split; [|congruence]. apply (proj1 (@C87_poison_spreads sha1 checked _ _ _ _ CS)); auto.
  - injection S as <- _. cbn. split; [auto|]. intros m m' E E'. rewrite E in E'. cbn in E'. injection E' as <-. reflexivity.
Qed.
Lemma dead_stays : forall n s e s' o, tinv n s -> r_mgr s = None -> step s e = Some (s', o) -> r_mgr s' = None.
Proof.
  intros n s e s' o I D S. destruct e; cbn [tor_step] in S; rewrite ?D in S; try discriminate.
  - destruct (q_step _ _); try discriminate. injection S as <- _. auto.
  - destruct (task_event e); [|discriminate]. destruct (cstep _ _) as [[c1 o1]|]; [|discriminate]. injection S as <- _. auto.
  - injection S as <- _. reflexivity.
Qed.
Lemma dead_run : forall n es s s' tr, tinv n s -> r_mgr s = None -> run s es = Some (s', tr) -> r_mgr s' = None.
Proof.
  induction es as [|e es IH]; intros s s' tr I D H; [cbn in H; injection H as <- _; auto|]. apply run_cons_t in H. destruct H as (s1 & o & t1 & S & R & _). cbn [fst] in R. destruct (@step_spec _ _ _ _ _ I S) as (I1 & _). pose proof (@dead_stays _ _ _ _ _ I D S). eauto.
Qed.
(** After that no piece is ever started again: an attempt ends the manager. *)
Theorem C101_no_new_piece : forall hs s es s' tr m m', tor_reach sha1 checked hs s -> c_poisoned (r_con s) = true -> run s es = Some (s', tr) ->
  r_mgr s = Some m -> r_mgr s' = Some m' -> m_pieces m' = m_pieces m.
Proof.
  intros hs s es s' tr m m' R P H. apply reach_tinv in R. revert s s' tr m m' R P H. induction es as [|e es IH]; intros s s' tr m m' I P H E E'; [cbn in H; injection H as <- _; congruence|].
  apply run_cons_t in H. destruct H as (s1 & o & t1 & S & R & _). cbn [fst] in R. destruct (@step_spec _ _ _ _ _ I S) as (I1 & _). destruct (@stays_poisoned _ _ _ _ _ I P S) as (P1 & K).
  destruct (r_mgr s1) as [m1|] eqn:E1; [|pose proof (@dead_run _ _ _ _ _ I1 E1 R); congruence]. rewrite (IH _ _ _ _ _ I1 P1 R E1 E'). apply K; auto.
Qed.
Theorem C101_next_start_fatal : forall hs s n p i, tor_reach sha1 checked hs s -> c_poisoned (r_con s) = true -> r_mgr s <> None -> r_phase s = Adding n p i ->
  exists s', step s RAdd = Some (s', []) /\ r_mgr s' = None.
Proof.
  intros hs s n p i R P A PH. pose proof (v_mgr (reach_tinv R)) as V. destruct (r_mgr s) as [m|] eqn:E; [|tauto]. rewrite PH in V. destruct V as (_ & _ & D & _). cbn [tor_step]. rewrite E, PH. cbn [con_step]. rewrite D, P. cbn [c_main]. eauto.
Qed.
(** When the manager is gone, every downloader can end at once, whatever its
    peer does, and one that has ended stays so; there will be no new ones. *)
Definition shut (c : con) : Prop := forall x, In x (c_tasks c) -> t_open x = false.
Lemma shut_dropped : forall c, shut (con_dropped c).
Proof. intros c x I. cbn in I. apply in_map_iff in I. destruct I as (y & <- & _). reflexivity. Qed.
Lemma shut_task : forall c e c' o, task_event e = true -> cstep c e = Some (c', o) -> (shut c -> shut c') /\ length (c_tasks c') = length (c_tasks c) /\
  forall t x, nth_error (c_tasks c) t = Some x -> t_dl x = None -> exists x', nth_error (c_tasks c') t = Some x' /\ t_dl x' = None.
Proof.
  assert (U : forall l t x y, nth_error l t = Some x -> t_open y = t_open x -> (t_dl x = None -> t_dl y = None) -> ((forall z, In z l -> t_open z = false) -> forall z, In z (upd l t y) -> t_open z = false) /\ length (upd l t y) = length l /\
    forall u z, nth_error l u = Some z -> t_dl z = None -> exists z', nth_error (upd l t y) u = Some z' /\ t_dl z' = None).
  { intros l t x y N O D. assert (L : t < length l) by (apply nth_error_Some; congruence). split; [|split; [apply upd_length|]].
    - intros A z I. apply In_nth_error in I. destruct I as (u & I). destruct (Nat.eq_dec u t) as [->|NE].
      + rewrite nth_error_upd_same in I by exact L. injection I as <-. rewrite O. apply A. eapply nth_error_In; eauto.
      + rewrite nth_error_upd_other in I by auto. apply A. eapply nth_error_In; eauto.
    - intros u z I E. destruct (Nat.eq_dec u t) as [->|NE]; [rewrite nth_error_upd_same by exact L; exists y; split; [reflexivity|apply D; congruence]|rewrite nth_error_upd_other by auto; eauto]. }
  intros c e c' o T H. destruct e as [p|p|p b|p i h| |p m|t b|t|t oc now|t]; try discriminate; cbn [con_step] in H; destruct (nth_error (c_tasks c) t) as [x|] eqn:N; try discriminate.
  - destruct (_ && _); [|discriminate]. injection H as <- _. unfold shut. cbn [with_task c_tasks]. eapply U; [exact N|reflexivity|auto].
  - injection H as <- _. unfold shut. cbn [with_task c_tasks]. eapply U; [exact N|reflexivity|auto].
  - destruct (t_dl x) as [d|] eqn:D; [|discriminate].
    assert (K : forall y r, after_turn c t y r = (c', o) -> t_open y = t_open x -> (shut c -> shut c') /\ length (c_tasks c') = length (c_tasks c) /\ forall u z, nth_error (c_tasks c) u = Some z -> t_dl z = None -> exists z', nth_error (c_tasks c') u = Some z' /\ t_dl z' = None).
    { intros y r E O. unfold shut. destruct r; cbn [after_turn] in E; injection E as <- _; cbn [c_tasks]; (eapply U; [exact N|exact O|cbn; congruence]). }
    destruct oc; [destruct (t_cmds x) as [|w cs]|destruct (t_blocks x) as [|b bs]]; try discriminate; injection H as H; eapply K; [exact H|reflexivity|exact H|reflexivity].
  - destruct (t_dl x) as [d|] eqn:D; [|discriminate]. destruct (_ || _); [|discriminate]. injection H as <- _. unfold shut. cbn [with_task c_tasks]. eapply U; [exact N|reflexivity|cbn; congruence].
Qed.
Lemma shut_step : forall s e s' o, step s e = Some (s', o) -> (r_mgr s = None -> shut (r_con s)) -> r_mgr s' = None -> shut (r_con s').
Proof.
  assert (TK : forall s m p c s' o, take sha1 checked s m p c = Some (s', o) -> r_mgr s' = None -> shut (r_con s')).
  { intros s m p c s' o H D. unfold take in H. destruct (received _ _ _ _ _); [|discriminate]. destruct (handle_message m p c); injection H as <- _; try discriminate D; apply shut_dropped. }
  intros s e s' o S I D. destruct e as [op|p w|p| | | | |e|ks ks']; cbn [tor_step] in S.
  - destruct (q_step _ _); try discriminate. injection S as <- _. auto.
  - destruct (r_mgr s) as [m|]; [|discriminate]. destruct (r_phase s); try discriminate. destruct (con_of_message w); try discriminate. eapply TK; eauto.
  - destruct (r_mgr s) as [m|]; [|discriminate]. destruct (r_phase s); try discriminate. eapply TK; eauto.
  - destruct (r_mgr s) as [m|]; [|discriminate]. destruct (r_phase s); try discriminate. destruct (r_fin s) as [|[[p i] d] f]; [discriminate|]. eapply TK; eauto.
  - destruct (r_mgr s) as [m|]; [|discriminate]. destruct (r_phase s); try discriminate. destruct (m_refresh m (r_tab s)) as [[[m1 tab] os]| |]; try (injection S as <- _; apply shut_dropped).
    destruct (connects _ _ _ _); [|discriminate]. destruct (_ <? _); injection S as <- _; [apply shut_dropped|discriminate D].
  - destruct (r_mgr s) as [m|]; [|discriminate]. destruct (r_phase s) as [|[|k]|]; try discriminate; [injection S as <- _; discriminate D|]. destruct (select_piece m) as [[[[p i] h]|]| |]; try (injection S as <- _; try discriminate D; apply shut_dropped).
    destruct (cstep _ _) as [[c1 o1]|]; [|discriminate]. injection S as <- _. discriminate D.
  - destruct (r_mgr s) as [m|]; [|discriminate]. destruct (r_phase s); try discriminate. destruct (cstep _ _) as [[c1 o1]|]; [|discriminate]. destruct (c_main c1); try (injection S as <- _; apply shut_dropped).
    destruct (mark_ongoing m p i); injection S as <- _; try discriminate D; apply shut_dropped.
  - destruct (task_event e) eqn:T; [|discriminate]. destruct (cstep (r_con s) e) as [[c1 o1]|] eqn:C; [|discriminate]. injection S as <- _. cbn [r_mgr r_con] in *. apply (@shut_task _ _ _ _ T C). auto.
  - injection S as <- _. cbn [r_mgr r_con] in *. destruct (r_mgr s); [discriminate|]. auto.
Qed.
Theorem C101_downloaders_end : forall hs s, tor_reach sha1 checked hs s -> r_mgr s = None ->
  (forall t x, nth_error (c_tasks (r_con s)) t = Some x -> t_dl x <> None ->
    exists s' x', step s (RTask (End_ t)) = Some (s', []) /\ nth_error (c_tasks (r_con s')) t = Some x' /\ t_dl x' = None) /\
  (forall es s' tr, run s es = Some (s', tr) -> length (c_tasks (r_con s')) = length (c_tasks (r_con s)) /\
    forall t x, nth_error (c_tasks (r_con s)) t = Some x -> t_dl x = None -> exists x', nth_error (c_tasks (r_con s')) t = Some x' /\ t_dl x' = None).
Proof.
  intros hs s R D. split.
  - assert (SH : shut (r_con s)).
    { destruct R as (pl & s0 & es & tr & N & R). assert (A : r_mgr s0 = None -> shut (r_con s0)).
      { unfold tor_new in N. destruct (m_init hs); try discriminate. cbn [rbind] in N. destruct (con_new pl); try discriminate. injection N as <-. discriminate. }
      clear N. revert s0 tr A R. induction es as [|e es IH]; intros s0 tr A R; [cbn in R; injection R as <- _; auto|]. apply run_cons_t in R. destruct R as (s1 & o & t1 & S & R & _). cbn [fst] in R. eapply IH; [|exact R]. intro. eapply shut_step; eauto. }
    intros t x N L. cbn [tor_step task_event con_step]. rewrite N. destruct (t_dl x) as [d|]; [|congruence]. rewrite (SH x) by (eapply nth_error_In; eauto). cbn [negb orb]. rewrite D. eexists _, _. split; [reflexivity|]. cbn [r_con with_task c_tasks].
    rewrite nth_error_upd_same by (apply nth_error_Some; congruence). split; reflexivity.
  - apply reach_tinv in R. intros es. revert s R D. induction es as [|e es IH]; intros s I D s' tr H; [cbn in H; injection H as <- _; split; [reflexivity|eauto]|].
    apply run_cons_t in H. destruct H as (s1 & o & t1 & S & R & _). cbn [fst] in R. destruct (@step_spec _ _ _ _ _ I S) as (I1 & _). pose proof (@dead_stays _ _ _ _ _ I D S) as D1.
    destruct (IH _ I1 D1 _ _ R) as (L & K).
    assert (Q : length (c_tasks (r_con s1)) = length (c_tasks (r_con s)) /\ forall t x, nth_error (c_tasks (r_con s)) t = Some x -> t_dl x = None -> exists x', nth_error (c_tasks (r_con s1)) t = Some x' /\ t_dl x' = None).
    { destruct e; cbn [tor_step] in S; rewrite ?D in S; try discriminate.
      - destruct (q_step _ _); try discriminate. injection S as <- _. cbn. eauto.
      - destruct (task_event e) eqn:T; [|discriminate]. destruct (cstep (r_con s) e) as [[c1 o1]|] eqn:C; [|discriminate]. injection S as <- _. cbn. apply (@shut_task _ _ _ _ T C).
      - injection S as <- _. cbn. eauto. }
    destruct Q as (Q1 & Q2). split; [congruence|]. intros t x N E. destruct (Q2 t x N E) as (x' & N' & E'). eauto.
Qed.

(** ** C102 *)
Definition ends (s : tor) : Prop := exists es s' tr, run s es = Some (s', tr) /\ r_phase s' = Waiting /\ forallb own_step es = true.
Lemma ends_step : forall s e s1 o, step s e = Some (s1, o) -> own_step e = true -> ends s1 -> ends s.
Proof. intros s e s1 o S O (es & s' & tr & R & W & A). exists (e :: es), s', ((e, o) :: tr). cbn [tor_run forallb]. rewrite S, R, O. auto. Qed.
(** A full command queue is drained by its downloader. *)
Lemma pick_can : forall n b k s m, tinv n s -> r_mgr s = Some m -> r_phase s = Picking k ->
  (forall p i h t x, select_piece m = Val (Some (p, i, h)) -> omget p (c_map (r_con s)) = Some t -> nth_error (c_tasks (r_con s)) t = Some x -> length (t_cmds x) <= b) ->
  exists es s1 tr s2, run s es = Some (s1, tr) /\ forallb own_step es = true /\ step s1 RPick = Some (s2, []) /\ tinv n s2 /\
    (r_phase s2 = Waiting \/ k <> 0 /\ (r_phase s2 = Picking (k - 1) \/ exists p i, r_phase s2 = Adding (k - 1) p i)).
Proof.
  intros n. induction b as [|b IH]; intros k s m I E PH B.
  all: assert (NOW : forall s2, step s RPick = Some (s2, []) -> exists es s1 tr s2, run s es = Some (s1, tr) /\ forallb own_step es = true /\ step s1 RPick = Some (s2, []) /\ tinv n s2 /\
    (r_phase s2 = Waiting \/ k <> 0 /\ (r_phase s2 = Picking (k - 1) \/ exists p i, r_phase s2 = Adding (k - 1) p i)));
    [intros s2 S; exists [], s, [], s2; split; [reflexivity|]; split; [reflexivity|]; split; [auto|]; split; [eapply step_spec; eauto|]; cbn [tor_step] in S; rewrite E, PH in S; destruct k as [|k]; [injection S as <-; auto|];
      destruct (select_piece m) as [[[[p i] h]|]| |]; try (injection S as <-; cbn; auto; fail); destruct (cstep (r_con s) (Download p i h)) as [[c1 o1]|]; [|discriminate]; injection S as <-; cbn [r_phase]; right; split; [lia|]; replace (S k - 1) with k by lia; destruct (c_main c1); eauto|].
  all: pose proof I as [Q M F T V]; rewrite E, PH in V; destruct V as (IM & _ & D & _).
  all: destruct k as [|k]; [eapply NOW; cbn [tor_step]; rewrite E, PH; reflexivity|].
  all: destruct (select_exact IM) as (r & SP & _); destruct r as [[[p i] h]|]; [|eapply NOW; cbn [tor_step]; rewrite E, PH, SP; reflexivity].
  all: destruct (cstep (r_con s) (Download p i h)) as [[c1 o1]|] eqn:CS; [eapply NOW; cbn [tor_step]; rewrite E, PH, SP, CS; reflexivity|].
  all: cbn [con_step] in CS; rewrite D in CS; destruct (omget p (c_map (r_con s))) as [t|] eqn:G; [|discriminate]; pose proof (M _ _ G) as LT; destruct (nth_error (c_tasks (r_con s)) t) as [x|] eqn:N; [|apply nth_error_None in N; lia].
  all: destruct (t_dl x) as [d|] eqn:DL; [|discriminate]; destruct (MESSAGE_CHANNEL_BUFFER <=? length (t_cmds x)) eqn:FU; [|discriminate]; apply Nat.leb_le in FU; change MESSAGE_CHANNEL_BUFFER with 32 in FU; specialize (B _ _ _ _ _ SP G N); try lia.
  destruct (t_cmds x) as [|w cs] eqn:CM; [cbn in FU; lia|]. cbn [length] in *.
  assert (TU : exists c1, cstep (r_con s) (Turn t true 0) = Some (c1, []) /\ c_map c1 = c_map (r_con s) /\ exists y, nth_error (c_tasks c1) t = Some y /\ t_cmds y = cs).
  { destruct (cstep (r_con s) (Turn t true 0)) as [[c1 o1]|] eqn:CT; [|cbn [con_step] in CT; rewrite N, DL, CM in CT; discriminate]. exists c1. destruct (@step_quiet sha1 checked _ _ _ _ Q CT) as (_ & KO).
    assert (o1 = []) as ->. { destruct o1 as [|z o1]; [auto|]. destruct (KO z (or_introl eq_refl)) as (? & ? & ? & X & _). discriminate. } split; [auto|].
    cbn [con_step] in CT. rewrite N, DL, CM in CT. injection CT as CT. destruct (dl_turn _ _ _ _ _ _ _); cbn [after_turn] in CT; first [injection CT as <- _|injection CT as <-]; cbn [c_map c_tasks]; (split; [auto|]); eexists; (split; [apply nth_error_upd_same; auto|reflexivity]). }
  destruct TU as (c1 & CT & MP & y & NY & CY).
  assert (S1 : step s (RTask (Turn t true 0)) = Some (mk_tor (r_mgr s) (r_tab s) c1 (r_phase s) [], [])). { cbn [tor_step task_event]. rewrite CT. rewrite E, F. reflexivity. }
  destruct (@step_spec _ _ _ _ _ I S1) as (I1 & _).
  destruct (IH (S k) _ m I1 E PH) as (es & s2 & tr & s3 & R & A & X).
  { intros p' i' h' t' x' SP' G' N'. rewrite SP in SP'. injection SP' as <- <- <-. cbn [r_con] in *. rewrite MP, G in G'. injection G' as <-. rewrite NY in N'. injection N' as <-. rewrite CY. lia. }
  exists (RTask (Turn t true 0) :: es), s2, ((RTask (Turn t true 0), []) :: tr), s3. split; [|split; [cbn [forallb own_step]; auto|exact X]]. cbn [tor_run]. rewrite S1, R. reflexivity.
Qed.
Lemma ends_run : forall es s s1 tr, run s es = Some (s1, tr) -> forallb own_step es = true -> ends s1 -> ends s.
Proof.
  induction es as [|e es IH]; intros s s1 tr H A K; [cbn in H; injection H as <- _; auto|]. apply run_cons_t in H. destruct H as (s2 & o & t1 & S & R & _). cbn [fst] in R. cbn [forallb] in A. apply andb_true_iff in A. destruct A as (A1 & A2). eapply ends_step; eauto.
Qed.
Lemma picking_ends : forall n k s, tinv n s -> r_phase s = Picking k -> ends s.
Proof.
  intros n. induction k as [k IHk] using lt_wf_ind. intros s I PH. pose proof (v_mgr I) as V. destruct (r_mgr s) as [m|] eqn:E; [|destruct V; congruence].
  assert (B : exists b, forall p i h t x, select_piece m = Val (Some (p, i, h)) -> omget p (c_map (r_con s)) = Some t -> nth_error (c_tasks (r_con s)) t = Some x -> length (t_cmds x) <= b).
  { destruct (select_piece m) as [[[[p i] h]|]| |]; try (exists 0; intros; discriminate). destruct (omget p (c_map (r_con s))) as [t|] eqn:G; [|exists 0; intros p' i' h' t' x' X Y; injection X as <- <- <-; congruence].
    destruct (nth_error (c_tasks (r_con s)) t) as [x|] eqn:N; [|exists 0; intros p' i' h' t' x' X Y Z; injection X as <- <- <-; congruence]. exists (length (t_cmds x)). intros p' i' h' t' x' X Y Z. injection X as <- <- <-. rewrite G in Y. injection Y as <-. rewrite N in Z. injection Z as <-. auto. }
  destruct B as (b & B). destruct (@pick_can n b k s m I E PH B) as (es & s1 & tr & s2 & R & A & S & I2 & C). eapply ends_run; eauto. eapply ends_step; [exact S|reflexivity|]. destruct C as [C|(K & [C|(p & i & C)])].
  - exists [], s2, []. auto.
  - eapply (IHk (k - 1)); eauto. lia.
  - pose proof (v_mgr I2) as V2. destruct (r_mgr s2) as [m2|] eqn:E2; [|destruct V2; congruence]. pose proof V2 as V3. rewrite C in V3. destruct V3 as (_ & _ & D & _).
    assert (RA : exists s3, step s2 RAdd = Some (s3, []) /\ (r_phase s3 = Waiting \/ r_phase s3 = Picking (k - 1))).
    { cbn [tor_step]. rewrite E2, C. destruct (cstep (r_con s2) AddPiece) as [[c1 o1]|] eqn:CS; [|cbn [con_step] in CS; rewrite D in CS; destruct (c_poisoned (r_con s2)); [discriminate|]; destruct (pp_add_piece _ _); discriminate].
      destruct (c_main c1); [destruct (mark_ongoing m2 p i)| |]; eexists; (split; [reflexivity|]); cbn; auto. }
    destruct RA as (s3 & S3 & P3). destruct (@step_spec _ _ _ _ _ I2 S3) as (I3 & _). eapply ends_step; [exact S3|reflexivity|]. destruct P3 as [P3|P3]; [exists [], s3, []; auto|]. eapply (IHk (k - 1)); eauto. lia.
Qed.
(** From every state the manager gets back to waiting for messages by its own
    steps and turns of the downloaders. *)
Theorem C102_tick_ends : forall hs s, tor_reach sha1 checked hs s -> exists es s' tr, run s es = Some (s', tr) /\ r_phase s' = Waiting /\ forallb own_step es = true.
Proof.
  intros hs s R. pose proof (reach_tinv R) as I. fold (ends s). destruct (r_phase s) as [|k|k p i] eqn:PH.
  - exists [], s, []. auto.
  - eapply picking_ends; eauto.
  - pose proof (v_mgr I) as V. destruct (r_mgr s) as [m|] eqn:E; [|destruct V; congruence]. rewrite PH in V. destruct V as (_ & _ & D & _).
    assert (RA : exists s3, step s RAdd = Some (s3, []) /\ (r_phase s3 = Waiting \/ r_phase s3 = Picking k)).
    { cbn [tor_step]. rewrite E, PH. destruct (cstep (r_con s) AddPiece) as [[c1 o1]|] eqn:CS; [|cbn [con_step] in CS; rewrite D in CS; destruct (c_poisoned (r_con s)); [discriminate|]; destruct (pp_add_piece _ _); discriminate].
      destruct (c_main c1); [destruct (mark_ongoing m p i)| |]; eexists; (split; [reflexivity|]); cbn; auto. }
    destruct RA as (s3 & S3 & P3). destruct (@step_spec _ _ _ _ _ I S3) as (I3 & _). eapply ends_step; [exact S3|reflexivity|]. destruct P3 as [P3|P3]; [exists [], s3, []; auto|]. eapply picking_ends; eauto.
Qed.
(** ... and whatever happens meanwhile: until the next tick they take at most
    [work s] steps, and as long as the manager is not back one of them can be
    taken. *)
Definition cmds_of (c : con) : nat := list_sum (map (fun x => length (t_cmds x)) (c_tasks c)).
Lemma cmds_upd : forall l t x y, nth_error l t = Some x ->
  list_sum (map (fun x => length (t_cmds x)) (upd l t y)) + length (t_cmds x) = list_sum (map (fun x => length (t_cmds x)) l) + length (t_cmds y).
Proof.
  induction l as [|z l IH]; intros [|t] x y N; cbn [nth_error] in N; try discriminate.
  - injection N as ->. unfold upd. cbn. lia.
  - specialize (IH t x y N). change (upd (z :: l) (S t) y) with (z :: upd l t y). cbn [map list_sum fold_right]. unfold list_sum in *. lia.
Qed.
Lemma cmds_step : forall c e c' o, cstep c e = Some (c', o) ->
  cmds_of c' + (match e with Turn _ true _ => 1 | _ => 0 end) <= cmds_of c + (match e with Download _ _ _ => 1 | _ => 0 end).
Proof.
  intros c e c' o H. unfold cmds_of.
  destruct e as [p|p|p b|p i h| |p m|t b|t|t oc now|t]; cbn [con_step] in H.
  - destruct (c_main c); try discriminate. destruct (omget p (c_map c)); injection H as <- <-; cbn [c_tasks]; [lia|]. rewrite map_app, list_sum_app. cbn. lia.
  - destruct (c_main c); try discriminate. destruct (omget p (c_map c)) as [t|]; [|injection H as <- <-; lia]. destruct (nth_error (c_tasks c) t) as [x|] eqn:N; [|discriminate]. injection H as <- <-. cbn [c_tasks].
    match goal with |- context [upd _ t ?y] => pose proof (cmds_upd _ _ y N) as U end. cbn [t_cmds] in U. lia.
  - destruct (c_main c); try discriminate. destruct (omget p (c_map c)) as [t|]; [|injection H as <- <-; lia]. destruct (nth_error (c_tasks c) t) as [x|] eqn:N; [|discriminate]. injection H as <- <-. cbn [with_task c_tasks].
    match goal with |- context [upd _ t ?y] => pose proof (cmds_upd _ _ y N) as U end. cbn [t_cmds] in U. lia.
  - destruct (c_main c); try discriminate. destruct (omget p (c_map c)) as [t|]; [|injection H as <- <-; lia]. destruct (nth_error (c_tasks c) t) as [x|] eqn:N; [|discriminate].
    destruct (t_dl x); [|injection H as <- <-; lia]. destruct (_ <=? _); [discriminate|]. injection H as <- <-. cbn [c_tasks].
    match goal with |- context [upd _ t ?y] => pose proof (cmds_upd _ _ y N) as U end. cbn [t_cmds] in U. rewrite app_length in U. cbn [length] in U. lia.
  - destruct (c_main c); try discriminate. destruct (c_poisoned c); [injection H as <- <-; cbn [c_tasks]; lia|]. destruct (pp_add_piece _ _); injection H as <- <-; cbn [c_tasks]; lia.
  - destruct (c_main c); try discriminate. destruct (negb _); [discriminate|]. destruct (omget p (c_map c)) as [t|]; [|injection H as <- <-; lia].
    destruct (nth_error (c_tasks c) t); [|discriminate]. injection H as <- <-. lia.
  - destruct (nth_error (c_tasks c) t) as [x|] eqn:N; [|discriminate]. destruct (_ && _); [|discriminate]. injection H as <- <-. cbn [with_task c_tasks].
    match goal with |- context [upd _ t ?y] => pose proof (cmds_upd _ _ y N) as U end. cbn [t_cmds] in U. lia.
  - destruct (nth_error (c_tasks c) t) as [x|] eqn:N; [|discriminate]. injection H as <- <-. cbn [with_task c_tasks].
    match goal with |- context [upd _ t ?y] => pose proof (cmds_upd _ _ y N) as U end. cbn [t_cmds] in U. lia.
  - destruct (nth_error (c_tasks c) t) as [x|] eqn:N; [|discriminate]. destruct (t_dl x) as [d|]; [|discriminate].
    assert (K : forall y r, after_turn c t y r = (c', o) -> list_sum (map (fun x => length (t_cmds x)) (c_tasks c')) + length (t_cmds x) = list_sum (map (fun x => length (t_cmds x)) (c_tasks c)) + length (t_cmds y)).
    { intros y r E. destruct r; cbn [after_turn] in E; injection E as <- _; cbn [c_tasks]; match goal with |- context [upd _ t ?y] => pose proof (cmds_upd _ _ y N) as U end; cbn [t_cmds] in U; lia. }
    destruct oc; [destruct (t_cmds x) as [|w cs]|destruct (t_blocks x) as [|b bs]]; try discriminate; injection H as H; apply K in H; cbn [t_cmds length] in H; lia.
  - destruct (nth_error (c_tasks c) t) as [x|] eqn:N; [|discriminate]. destruct (t_dl x) as [d|]; [|discriminate]. destruct (_ || _); [|discriminate]. injection H as <- <-. cbn [with_task c_tasks].
    match goal with |- context [upd _ t ?y] => pose proof (cmds_upd _ _ y N) as U end. cbn [t_cmds] in U. lia.
Qed.
Lemma cmds_dropped : forall c, cmds_of (con_dropped c) = cmds_of c.
Proof. intro c. unfold cmds_of, con_dropped. cbn [c_tasks]. rewrite map_map. reflexivity. Qed.
Lemma cmds_received : forall c p m c', received sha1 checked c p m = Some c' -> cmds_of c' <= cmds_of c.
Proof.
  intros c p m c' H. unfold received in H. destruct m; try (injection H as <-; lia);
  match type of H with option_map fst ?z = _ => destruct z as [[c1 o1]|] eqn:S; [|discriminate] end; cbn in H; injection H as <-; apply cmds_step in S; lia.
Qed.
Lemma work_step : forall s e s' o, step s e = Some (s', o) -> e <> RTick -> work s' + (if own_step e then 1 else 0) <= work s.
Proof.
  intros s e s' o H NT. unfold work. fold (cmds_of (r_con s)) (cmds_of (r_con s')). destruct e as [q|p w|p| | | | |e|ks ks']; cbn [tor_step] in H; try congruence.
  - destruct (q_step _ _); try discriminate. injection H as <- _. cbn. lia.
  - destruct (r_mgr s) as [m|]; [|discriminate]. destruct (r_phase s); try discriminate. destruct (con_of_message w) as [c| |]; try discriminate. unfold take in H.
    destruct (received sha1 checked (r_con s) p c) as [k|] eqn:R; [|discriminate]. apply cmds_received in R. destruct (handle_message m p c); injection H as <- _; cbn [r_phase r_con tor_dead]; rewrite ?cmds_dropped; cbn; lia.
  - destruct (r_mgr s) as [m|]; [|discriminate]. destruct (r_phase s); try discriminate. unfold take in H.
    destruct (received sha1 checked (r_con s) p CUnreachable) as [k|] eqn:R; [|discriminate]. apply cmds_received in R. destruct (handle_message m p CUnreachable); injection H as <- _; cbn [r_phase r_con tor_dead]; rewrite ?cmds_dropped; cbn; lia.
  - destruct (r_mgr s) as [m|]; [|discriminate]. destruct (r_phase s); try discriminate. destruct (r_fin s) as [|[[p i] d] f]; [discriminate|]. unfold take in H. cbn [r_con] in H.
    destruct (received sha1 checked (r_con s) p (CFinishedPiece i d)) as [k|] eqn:R; [|discriminate]. apply cmds_received in R. destruct (handle_message m p _); injection H as <- _; cbn [r_phase r_con tor_dead]; rewrite ?cmds_dropped; cbn; lia.
  - destruct (r_mgr s) as [m|]; [|discriminate]. destruct (r_phase s) as [|[|k]|]; try discriminate; [injection H as <- _; cbn; lia|].
    destruct (select_piece m) as [[[[p i] h]|]| |]; try (injection H as <- _; cbn [r_phase r_con tor_dead own_step]; rewrite ?cmds_dropped; lia).
    destruct (cstep (r_con s) (Download p i h)) as [[c1 o1]|] eqn:CS; [|discriminate]. injection H as <- _. apply cmds_step in CS. cbn [r_phase r_con own_step]. destruct (c_main c1) eqn:CM; lia.
  - destruct (r_mgr s) as [m|]; [|discriminate]. destruct (r_phase s) as [|k|k p i]; try discriminate. destruct (cstep (r_con s) AddPiece) as [[c1 o1]|] eqn:CS; [|discriminate]. apply cmds_step in CS.
    destruct (c_main c1); [destruct (mark_ongoing m p i)| |]; injection H as <- _; cbn [r_phase r_con tor_dead own_step]; rewrite ?cmds_dropped; lia.
  - destruct (task_event e) eqn:TE; [|discriminate]. destruct (cstep (r_con s) e) as [[c1 o1]|] eqn:CS; [|discriminate]. injection H as <- _. apply cmds_step in CS. cbn [r_phase r_con own_step].
    destruct e as [| | | | | | | |t [|] now|]; try discriminate TE; lia.
  - injection H as <- _. cbn. lia.
Qed.
Theorem C102_bounded : forall es s s' tr, run s es = Some (s', tr) -> ~ In RTick es -> length (filter own_step es) + work s' <= work s.
Proof.
  induction es as [|e es IH]; intros s s' tr H N; [cbn in H; injection H as <- _; cbn; lia|]. apply run_cons_t in H. destruct H as (s1 & o & t1 & S & R & _). cbn [fst] in R.
  apply work_step in S; [|intros ->; apply N; left; auto]. apply IH in R; [|intro X; apply N; right; auto]. cbn [filter]. destruct (own_step e); cbn [length]; lia.
Qed.
Theorem C102_never_stuck : forall hs s, tor_reach sha1 checked hs s -> r_phase s <> Waiting -> exists e s' o, own_step e = true /\ step s e = Some (s', o).
Proof.
  intros hs s R W. destruct (C102_tick_ends R) as (es & s' & tr & H & P & O). destruct es as [|e es]; [cbn in H; injection H as <- _; contradiction|].
  apply run_cons_t in H. destruct H as (s1 & o & t1 & S & _). cbn [forallb] in O. apply andb_true_iff in O. destruct O as (O & _). eauto.
Qed.
End Props.

(** ** Witnesses: two seeders of a torrent with one piece of five bytes. *)
Definition ex_s1 : addr := mk_addr x0a x00 x00 x01 6881.
Definition ex_s2 : addr := mk_addr x0a x00 x00 x02 6881.
Definition ex_data : bytes := [x68; x65; x6c; x6c; x6f].
Definition ex_joined : list rev :=
  [RTable (QInsert ex_s1); RTable (QInsert ex_s2); RTick; RPick;
   RMsg ex_s1 (Bitfield [x80]); RMsg ex_s1 Unchoke; RMsg ex_s2 (Bitfield [x80]); RMsg ex_s2 Unchoke].
(** The piece is assigned, its only block arrives with the right content, and
    the piece is still missing (the downloader had taken another turn before). *)
Theorem C100_seeded_refuted : forall sha1 checked, exists hs s0 es s tr p t b, tor_new hs 5 = Val s0 /\ tor_run sha1 checked s0 es = Some (s, tr) /\
  hs = [sha1 ex_data] /\ pm_block b = ex_data /\ In (RTask (BlockIn t b)) es /\ (forall e, In e es -> well_behaved 1 e) /\
  offers s p 0 /\ assigned (r_con s) t 0 /\ (forall x, nth_error (c_tasks (r_con s)) t = Some x -> t_peer x = p /\ t_blocks x = [] /\ t_cmds x = []) /\
  c_poisoned (r_con s) = false /\ ~ held s 0.
Proof.
  intros sha1 checked. exists [sha1 ex_data]. eexists.
  exists (ex_joined ++ [RTask (BlockIn 0 (mk_piece 7 0 [])); RTask (Turn 0 false 1); RTick; RPick; RAdd; RTask (Turn 0 true 2); RTask (BlockIn 0 (mk_piece 0 0 ex_data)); RTask (Turn 0 false 3)]).
  do 2 eexists. exists ex_s1, 0, (mk_piece 0 0 ex_data). assert (N : forall s, tor_new [sha1 ex_data] 5 = Val s -> forall es s' tr, tor_run sha1 checked s es = Some (s', tr) -> ~ held s' 0).
  { intros s N es s' tr R. apply (proj1 (@C100_nothing_always sha1 checked _ _ _ _ _ _ N R)). }
  match goal with |- ?a /\ ?b /\ _ => assert (H : a) by (vm_compute; reflexivity); assert (H2 : b) by (vm_compute; reflexivity) end.
  split; [exact H|]. split; [exact H2|]. split; [reflexivity|]. split; [reflexivity|]. split; [cbn; auto 20|].
  split. { intros e I. cbn in I. intuition (subst; cbn; auto). }
  split. { do 2 eexists. split; [reflexivity|]. split; [left; reflexivity|]. split; [reflexivity|]. vm_compute. reflexivity. }
  split. { do 2 eexists. split; [reflexivity|]. split; [reflexivity|]. left. cbn. auto. }
  split. { intros x X. cbn in X. injection X as <-. auto. }
  split; [reflexivity|]. eapply N; eauto.
Qed.
(** Two seeders that send a bitfield and an unchoke each end the manager. *)
Theorem C101_honest_refuted : forall sha1 checked, exists hs s0 es s tr, tor_new hs 5 = Val s0 /\ tor_run sha1 checked s0 es = Some (s, tr) /\
  (forall e, In e es -> well_behaved (length hs) e) /\ r_mgr s = None.
Proof.
  intros sha1 checked. exists [ex_id]. eexists. exists (ex_joined ++ [RTick; RPick; RAdd; RTask (Turn 0 true 2); RPick; RAdd]). do 2 eexists.
  split; [vm_compute; reflexivity|]. split; [vm_compute; reflexivity|]. split; [|reflexivity]. intros e I. cbn in I. intuition (subst; cbn; auto).
Qed.
(** ... and for the theorem about the downloaders: after the run of
    [C101_honest_refuted] the manager is gone and one of the two is left. *)
Example C101_downloaders_example : forall sha1 checked, exists s x d, tor_reach sha1 checked [ex_id] s /\ r_mgr s = None /\ nth_error (c_tasks (r_con s)) 1 = Some x /\ t_dl x = Some d.
Proof.
  intros sha1 checked. assert (X : exists s0 s tr, tor_new [ex_id] 5 = Val s0 /\ tor_run sha1 checked s0 (ex_joined ++ [RTick; RPick; RAdd; RTask (Turn 0 true 2); RPick; RAdd]) = Some (s, tr) /\
    r_mgr s = None /\ exists x d, nth_error (c_tasks (r_con s)) 1 = Some x /\ t_dl x = Some d).
  { do 3 eexists. split; [vm_compute; reflexivity|]. split; [vm_compute; reflexivity|]. split; [reflexivity|]. do 2 eexists. split; reflexivity. }
  destruct X as (s0 & s & tr & N & R & D & x & d & T & L). exists s, x, d. split; [do 4 eexists; split; [exact N|exact R]|]. auto.
Qed.
(** Even one seeder does, if its downloader runs at the right moment. *)
Theorem C101_one_seeder_refuted : forall sha1 checked, exists hs s0 es s tr, tor_new hs 5 = Val s0 /\ tor_run sha1 checked s0 es = Some (s, tr) /\
  (forall e, In e es -> well_behaved (length hs) e) /\ (forall p w, In (RMsg p w) es -> p = ex_s1) /\ r_mgr s = None.
Proof.
  intros sha1 checked. exists [ex_id]. eexists.
  exists [RTable (QInsert ex_s1); RTick; RPick; RMsg ex_s1 (Bitfield [x80]); RMsg ex_s1 Unchoke; RTick; RPick; RAdd; RPick; RTask (Turn 0 true 2); RAdd]. do 2 eexists.
  split; [vm_compute; reflexivity|]. split; [vm_compute; reflexivity|]. split; [intros e I; cbn in I; intuition (subst; cbn; auto)|]. split; [|reflexivity]. intros p w I. cbn in I. intuition congruence.
Qed.
(** States as in the theorems: a piece in flight and a turn to come, and after
    it, with the lock poisoned, the manager about to start the next piece. *)
Example C101_example : forall sha1 checked, exists s x d, tor_reach sha1 checked [ex_id] s /\ nth_error (c_tasks (r_con s)) 0 = Some x /\ t_dl x = Some d /\ dl_counter d mod 5 = 0 /\
  in_flight (c_pp (r_con s)) 0 /\ t_cmds x = [StartPiece ex_id 0] /\ c_poisoned (r_con s) = false /\ (exists m, r_mgr s = Some m /\ forall j, (nth j (m_freq m) 0 < 65535)%N) /\
  exists s' o, tor_step sha1 checked s (RTask (Turn 0 true 2)) = Some (s', o) /\ c_poisoned (r_con s') = true /\
  exists s'' o', tor_step sha1 checked s' RPick = Some (s'', o') /\ r_phase s'' = Adding 7 ex_s2 0 /\ r_mgr s'' <> None.
Proof.
  intros sha1 checked. eexists. do 2 eexists. split.
  - exists 5. eexists. exists (ex_joined ++ [RTick; RPick; RAdd]). eexists. split; [vm_compute; reflexivity|vm_compute; reflexivity].
  - split; [reflexivity|]. split; [reflexivity|]. split; [reflexivity|]. split; [left; reflexivity|]. split; [reflexivity|]. split; [reflexivity|]. split.
    + eexists. split; [reflexivity|]. intro j. destruct j as [|[|j]]; vm_compute; reflexivity.
    + do 2 eexists. split; [vm_compute; reflexivity|]. split; [reflexivity|]. do 2 eexists. split; [vm_compute; reflexivity|]. split; [reflexivity|discriminate].
Qed.
(** A tick in the middle. *)
Example C102_example : forall sha1 checked, exists s, tor_reach sha1 checked [ex_id] s /\ exists n p i, r_phase s = Adding n p i.
Proof.
  intros sha1 checked. eexists. split.
  - exists 5. eexists. exists (ex_joined ++ [RTick; RPick]). eexists. split; [vm_compute; reflexivity|vm_compute; reflexivity].
  - do 3 eexists. reflexivity.
Qed.
Print Assumptions C100_nothing_always.
Print Assumptions C100_seeded_refuted.
Print Assumptions C101_causes.
Print Assumptions C101_seeders_harmless_partial.
Print Assumptions C101_poison_source.
Print Assumptions C101_turn_fatal.
Print Assumptions C101_no_new_piece.
Print Assumptions C101_next_start_fatal.
Print Assumptions C101_downloaders_end.
Print Assumptions C101_downloaders_example.
Print Assumptions C101_honest_refuted.
Print Assumptions C101_one_seeder_refuted.
Print Assumptions C102_tick_ends.
Print Assumptions C102_bounded.
Print Assumptions C102_never_stuck.
