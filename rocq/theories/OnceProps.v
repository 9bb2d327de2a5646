(** C66 in the running torrent: no peer ever gets a second connection. *)
From Coq Require Import List NArith ZArith Lia Bool Arith.
From Coq Require Import Init.Byte.
From Verif Require Import Base Assoc BitSpec BitmapModel IdModel WireModel PeersModel PeersSpec PeersProofs PeersProps ManagerModel ManagerSpec PendingModel ConnModel ConnSpec ConnProps ClientModel TorrentModel TorrentSpec TorrentProps TickProps QueueProps.
Import ListNotations.

(** ** Vocabulary *)
(** The peers a connection was ever started to, in order; the entry of one that has ended stays. *)
Definition contacted (s : tor) : list addr := map t_peer (c_tasks (r_con s)).

(** ** Proofs *)
Definition names (c : con) : list addr := map fst (lines c).
Lemma contacted_names : forall s, contacted s = names (r_con s).
Proof. intro s. unfold contacted, names, lines. rewrite map_map. reflexivity. Qed.
Lemma upd_fst : forall (l : list (addr * list cmd)) t p q q', nth_error l t = Some (p, q) -> map fst (upd l t (p, q')) = map fst l.
Proof. induction l as [|z l IH]; intros [|t] p q q' H; cbn [nth_error] in H; try discriminate; [injection H as ->; reflexivity|]. change (upd (z :: l) (S t) (p, q')) with (z :: upd l t (p, q')). cbn [map]. rewrite (IH _ _ _ _ H). reflexivity. Qed.
Definition once (c : con) : Prop := NoDup (names c) /\ forall p, In p (names c) <-> connected c p.
Section Once.
Variable sha1 : bytes -> ID.
Variable checked : bool.
Notation cstep := (con_step sha1 checked).
Notation step := (tor_step sha1 checked).
Notation run := (tor_run sha1 checked).
Lemma names_kept : forall c e c' o, cstep c e = Some (c', o) -> (forall p, e <> Connect p) -> names c' = names c.
Proof.
  intros c e c' o H NC. pose proof (con_lines _ _ _ _ _ _ H) as L. unfold names. destruct e as [p|p|p b|p i h| |p m|t b|t|t oc now|t]; try (rewrite L; reflexivity).
  - exfalso. eapply NC. reflexivity.
  - destruct L as [L|(t & p0 & q & _ & E & L)]; rewrite L; [reflexivity|apply (upd_fst _ _ _ _ _ E)].
  - destruct oc; [|rewrite L; reflexivity]. destruct L as (p0 & w & q & E & L). rewrite L. apply (upd_fst _ _ _ _ _ E).
Qed.
Lemma once_same : forall c c', once c -> names c' = names c -> c_map c' = c_map c -> once c'.
Proof. intros c c' (A & B) N M. unfold once, connected. rewrite N, M. split; [exact A|exact B]. Qed.
Lemma once_kept : forall c e c' o, cstep c e = Some (c', o) -> (forall p, e <> Connect p) -> (forall p, e <> Disconnect p) -> once c -> once c'.
Proof. intros c e c' o H N1 N2 O. apply (once_same _ _ O); [eapply names_kept; eauto|eapply map_kept; eauto]. Qed.
Lemma once_connect : forall c p c' o, cstep c (Connect p) = Some (c', o) -> once c -> once c'.
Proof.
  intros c p c' o H O. cbn [con_step] in H. destruct (c_main c); try discriminate. destruct (omget p (c_map c)) as [t|] eqn:E; injection H as <- <-; [exact O|].
  destruct O as (A & B). assert (NI : ~ In p (names c)) by (intro I; apply B in I; apply omget_in in I; congruence).
  assert (NM : names (mk_con (c_pp c) (c_poisoned c) (omset p (length (c_tasks c)) (c_map c)) (c_tasks c ++ [task_new p]) MIdle) = names c ++ [p]) by (unfold names, lines; cbn [c_tasks]; rewrite !map_app; reflexivity).
  unfold once. rewrite NM. split.
  - apply (@NoDup_Add _ p (names c)); [|split; [exact A|exact NI]]. rewrite <- (app_nil_r (names c)) at 1. apply Add_app.
  - intro q. unfold connected. cbn [c_map]. rewrite omget_in, omget_set, in_app_iff. cbn [In]. destruct (addr_eqb q p) eqn:Q.
    + apply addr_eqb_spec in Q. subst. split; [discriminate|auto].
    + rewrite <- omget_in. specialize (B q). unfold connected in B. rewrite <- B. split; [intros [I|[<-|[]]]; [exact I|]|auto]. assert (addr_eqb p p = true) by (apply addr_eqb_spec; reflexivity). congruence.
Qed.
Lemma once_connects : forall os c k, connects sha1 checked c os = Some k -> once c -> once k.
Proof.
  induction os as [|[p|p h i] os IH]; intros c k H O; cbn [connects] in H; [injection H as <-; exact O| |eauto].
  destruct (cstep c (Connect p)) as [[c1 o1]|] eqn:S; [|discriminate]. eapply IH; [exact H|]. eapply once_connect; eauto.
Qed.
Definition tonce (s : tor) : Prop := NoDup (contacted s) /\ (r_mgr s <> None -> once (r_con s)).
Lemma tonce_live : forall s, once (r_con s) -> tonce s.
Proof. intros s O. split; [rewrite contacted_names; apply O|auto]. Qed.
Lemma tonce_dead : forall s k, once k -> tonce (tor_dead s k).
Proof. intros s k O. split; [|intro H; exfalso; apply H; reflexivity]. rewrite contacted_names. unfold names. cbn [tor_dead r_con]. rewrite lines_dropped. apply O. Qed.
Lemma take_once : forall s m p c s' o, take sha1 checked s m p c = Some (s', o) -> once (r_con s) -> tonce s'.
Proof.
  intros s m p c s' o H O. unfold take in H. destruct (received sha1 checked (r_con s) p c) as [k|] eqn:R; [|discriminate]. destruct (received_lines _ _ _ _ _ _ R) as (M & L).
  assert (K : once k) by (apply (once_same _ _ O); [unfold names; rewrite L; reflexivity|exact M]).
  destruct (handle_message m p c); injection H as <- <-; [apply tonce_live; exact K|apply tonce_dead; exact K..].
Qed.
Lemma step_once : forall s e s' o, step s e = Some (s', o) -> tonce s -> tonce s'.
Proof.
  intros s e s' o H T. pose proof T as (N & O). destruct e as [q|p w|p| | | | |e|ks ks']; cbn [tor_step] in H.
  - destruct (q_step (r_tab s) q); try discriminate. injection H as <- <-. exact T.
  - destruct (r_mgr s) as [m|] eqn:E; [|discriminate]. destruct (r_phase s); try discriminate. destruct (con_of_message w); try discriminate. eapply take_once; [exact H|apply O; congruence].
  - destruct (r_mgr s) as [m|] eqn:E; [|discriminate]. destruct (r_phase s); try discriminate. eapply take_once; [exact H|apply O; congruence].
  - destruct (r_mgr s) as [m|] eqn:E; [|discriminate]. destruct (r_phase s); try discriminate. destruct (r_fin s) as [|[[p i] d] f]; [discriminate|]. eapply take_once; [exact H|cbn [r_con]; apply O; congruence].
  - destruct (r_mgr s) as [m|] eqn:E; [|discriminate]. assert (OC : once (r_con s)) by (apply O; congruence). destruct (r_phase s); try discriminate. destruct (m_refresh m (r_tab s)) as [[[m1 t1] os]| |]; [|injection H as <- <-; apply tonce_dead; exact OC..].
    destruct (connects sha1 checked (r_con s) os) as [k|] eqn:K; [|discriminate]. pose proof (once_connects _ _ _ K OC) as OK. destruct (_ <? _); injection H as <- <-; [apply tonce_dead; exact OK|apply tonce_live; exact OK].
  - destruct (r_mgr s) as [m|] eqn:E; [|discriminate]. assert (OC : once (r_con s)) by (apply O; congruence). destruct (r_phase s) as [|[|n]|]; try discriminate; [injection H as <- <-; apply tonce_live; exact OC|].
    destruct (select_piece m) as [[[[p i] h]|]| |]; [|injection H as <- <-; first [apply tonce_live; exact OC|apply tonce_dead; exact OC]..].
    destruct (cstep (r_con s) (Download p i h)) as [[k o1]|] eqn:S; [|discriminate]. injection H as <- <-. apply tonce_live. cbn [r_con]. apply (once_kept _ _ _ _ S); [intros; discriminate..|exact OC].
  - destruct (r_mgr s) as [m|] eqn:E; [|discriminate]. assert (OC : once (r_con s)) by (apply O; congruence). destruct (r_phase s) as [| |n p i]; try discriminate. destruct (cstep (r_con s) AddPiece) as [[k o1]|] eqn:S; [|discriminate].
    assert (OK : once k) by (apply (once_kept _ _ _ _ S); [intros; discriminate..|exact OC]). destruct (c_main k); [destruct (mark_ongoing m p i)|..]; injection H as <- <-; first [apply tonce_live; exact OK|apply tonce_dead; exact OK].
  - destruct (task_event e) eqn:TE; [|discriminate]. destruct (cstep (r_con s) e) as [[k o1]|] eqn:S; [|discriminate]. injection H as <- <-. split.
    + rewrite contacted_names in *. cbn [r_con]. rewrite (names_kept _ _ _ _ S); [exact N|intros p ->; discriminate].
    + cbn [r_mgr r_con]. intro L. apply (once_kept _ _ _ _ S); [intros p ->; discriminate..|apply O; exact L].
  - injection H as <- <-. split; [exact N|]. cbn [r_mgr r_con]. intro L. apply O. intro X. apply L. rewrite X. reflexivity.
Qed.
Lemma run_once : forall es s s' tr, run s es = Some (s', tr) -> tonce s -> tonce s'.
Proof.
  induction es as [|e es IH]; intros s s' tr H T; cbn [tor_run] in H; [injection H as <- <-; exact T|].
  destruct (step s e) as [[s1 o]|] eqn:S; [|discriminate]. destruct (run s1 es) as [[s2 t2]|] eqn:R; [|discriminate]. cbn [option_map fst snd] in H. injection H as <- <-. eapply IH; [exact R|]. eapply step_once; eauto.
Qed.

(** ** Theorems *)
(** In the whole life of a torrent no peer is contacted twice, and while the manager lives the
    peers it takes for connected are exactly those ever contacted. *)
Theorem C66_running : forall hs pl s0 es s tr, tor_new hs pl = Val s0 -> run s0 es = Some (s, tr) ->
  NoDup (contacted s) /\ forall m p, r_mgr s = Some m -> (In p (m_conn m) <-> In p (contacted s)).
Proof.
  intros hs pl s0 es s tr N R. assert (I : tonce s0 /\ agree s0).
  { unfold tor_new in N. destruct (m_init hs) as [mi| |] eqn:MI; try discriminate. cbn [rbind] in N. unfold con_new in N. destruct (pp_new pl); try discriminate. cbn [rmap] in N. injection N as <-. split.
    - split; [constructor|]. intros _. split; [constructor|reflexivity].
    - intros m0 X p. injection X as <-. unfold m_init in MI. destruct (bm_new _); try discriminate. cbn [rbind] in MI. injection MI as <-. reflexivity. }
  destruct I as (T & A). destruct (run_once _ _ _ _ R T) as (ND & O). split; [exact ND|]. intros m p E. pose proof (run_agree _ _ _ _ _ _ R A m E p) as AG. rewrite AG, contacted_names. symmetry. apply O. congruence.
Qed.
End Once.

(** A peer is contacted, turns out to be unreachable, is taken up again by the next tick,
    and is not contacted again. *)
Example C66_running_example : forall sha1 checked, exists s0 s tr m, tor_new [ex_id] 5 = Val s0 /\
  tor_run sha1 checked s0 [RTable (QInsert ex_s1); RTick; RPick; RUnreachable ex_s1; RTick; RPick] = Some (s, tr) /\ r_mgr s = Some m /\ map fst (m_active m) = [ex_s1] /\ contacted s = [ex_s1].
Proof. intros sha1 checked. do 4 eexists. split; [vm_compute; reflexivity|]. split; [vm_compute; reflexivity|]. split; [reflexivity|]. split; reflexivity. Qed.
Print Assumptions C66_running.
