(** C31, C29, C30 in the running torrent: what the manager tells the downloaders,
    and its limits at every moment, also in the middle of a tick. *)
From Coq Require Import List NArith ZArith Lia Bool Arith.
From Coq Require Import Init.Byte.
From Verif Require Import Base Assoc BitSpec BitmapModel BitmapProofs IdModel WireModel PeersModel PeersSpec PeersProofs PeersProps ManagerModel ManagerSpec ManagerProofs ManagerProofs2 ManagerProps PendingModel ConnModel ConnSpec ConnProps ClientModel TorrentModel TorrentSpec TorrentProps TickProps.
Import ListNotations.

(** ** Vocabulary *)
(** The commands waiting for downloader [t]. *)
Definition queue (s : tor) (t : nat) : list cmd := match nth_error (c_tasks (r_con s)) t with Some x => t_cmds x | None => [] end.
(** Downloader [t] is one for peer [p]. *)
Definition serves (s : tor) (t : nat) (p : addr) : Prop := exists x, nth_error (c_tasks (r_con s)) t = Some x /\ t_peer x = p.

(** ** Proofs *)
Definition line (x : task) : addr * list cmd := (t_peer x, t_cmds x).
Definition lines (c : con) : list (addr * list cmd) := map line (c_tasks c).
Lemma upd_map : forall l t y, map line (upd l t y) = upd (map line l) t (line y).
Proof. induction l as [|z l IH]; intros [|t] y; try reflexivity. change (upd (z :: l) (S t) y) with (z :: upd l t y). cbn [map]. rewrite IH. reflexivity. Qed.
Lemma upd_self : forall A (l : list A) t a, nth_error l t = Some a -> upd l t a = l.
Proof. induction l as [|z l IH]; intros [|t] a H; cbn [nth_error] in H; try discriminate; [injection H as ->; reflexivity|]. change (upd (z :: l) (S t) a) with (z :: upd l t a). rewrite IH by exact H. reflexivity. Qed.
Lemma nth_upd_at : forall A (l : list A) t u a b, nth_error l t = Some b -> nth_error (upd l t a) u = if t =? u then Some a else nth_error l u.
Proof.
  induction l as [|z l IH]; intros [|t] [|u] a b H; cbn [nth_error] in H; try discriminate; try reflexivity.
  change (upd (z :: l) (S t) a) with (z :: upd l t a). cbn [nth_error Nat.eqb]. eapply IH; exact H.
Qed.
Lemma queue_lines : forall s t, queue s t = match nth_error (lines (r_con s)) t with Some x => snd x | None => [] end.
Proof. intros s t. unfold queue, lines. rewrite nth_error_map. destruct (nth_error (c_tasks (r_con s)) t); reflexivity. Qed.
Lemma upd_line : forall l t x y, nth_error l t = Some x -> line y = line x -> map line (upd l t y) = map line l.
Proof. intros l t x y H E. rewrite upd_map, E. apply upd_self. rewrite nth_error_map, H. reflexivity. Qed.
Lemma lines_dropped : forall c, lines (con_dropped c) = lines c.
Proof. intro c. unfold lines, con_dropped. cbn [c_tasks]. rewrite map_map. reflexivity. Qed.

Section Queue.
Variable sha1 : bytes -> ID.
Variable checked : bool.
Notation cstep := (con_step sha1 checked).
Notation step := (tor_step sha1 checked).
Notation run := (tor_run sha1 checked).

Lemma con_lines : forall c e c' o, cstep c e = Some (c', o) ->
  match e with
  | Connect p => (c_map c' = c_map c /\ lines c' = lines c) \/ (c_map c' = omset p (length (lines c)) (c_map c) /\ lines c' = lines c ++ [(p, [])])
  | Download p i h => lines c' = lines c \/ exists t p0 q, omget p (c_map c) = Some t /\ nth_error (lines c) t = Some (p0, q) /\ lines c' = upd (lines c) t (p0, q ++ [StartPiece h i])
  | Turn t true _ => exists p0 w q, nth_error (lines c) t = Some (p0, w :: q) /\ lines c' = upd (lines c) t (p0, q)
  | _ => lines c' = lines c
  end.
Proof.
  intros c e c' o H. unfold lines. destruct e as [p|p|p b|p i h| |p m|t b|t|t oc now|t]; cbn [con_step] in H.
  - destruct (c_main c); try discriminate. destruct (omget p (c_map c)); injection H as <- <-; [left; auto|right]. cbn [c_map c_tasks]. rewrite map_length, map_app. auto.
  - destruct (c_main c); try discriminate. destruct (omget p (c_map c)) as [t|]; [|injection H as <- <-; reflexivity]. destruct (nth_error (c_tasks c) t) as [x|] eqn:N; [|discriminate]. injection H as <- <-. cbn [c_tasks].
    apply (upd_line _ _ _ _ N). reflexivity.
  - destruct (c_main c); try discriminate. destruct (omget p (c_map c)) as [t|]; [|injection H as <- <-; reflexivity]. destruct (nth_error (c_tasks c) t) as [x|] eqn:N; [|discriminate]. injection H as <- <-. cbn [with_task c_tasks].
    apply (upd_line _ _ _ _ N). reflexivity.
  - destruct (c_main c); try discriminate. destruct (omget p (c_map c)) as [t|]; [|injection H as <- <-; auto]. destruct (nth_error (c_tasks c) t) as [x|] eqn:N; [|discriminate].
    destruct (t_dl x); [|injection H as <- <-; auto]. destruct (_ <=? _); [discriminate|]. injection H as <- <-. cbn [c_tasks]. right. exists t, (t_peer x), (t_cmds x).
    split; [reflexivity|]. rewrite nth_error_map, N. split; [reflexivity|]. apply upd_map.
  - destruct (c_main c); try discriminate. destruct (c_poisoned c); [injection H as <- <-; reflexivity|]. destruct (pp_add_piece _ _); injection H as <- <-; reflexivity.
  - destruct (c_main c); try discriminate. destruct (negb _); [discriminate|]. destruct (omget p (c_map c)) as [t|]; [|injection H as <- <-; reflexivity].
    destruct (nth_error (c_tasks c) t); [|discriminate]. injection H as <- <-. reflexivity.
  - destruct (nth_error (c_tasks c) t) as [x|] eqn:N; [|discriminate]. destruct (_ && _); [|discriminate]. injection H as <- <-. cbn [with_task c_tasks]. apply (upd_line _ _ _ _ N). reflexivity.
  - destruct (nth_error (c_tasks c) t) as [x|] eqn:N; [|discriminate]. injection H as <- <-. cbn [with_task c_tasks]. apply (upd_line _ _ _ _ N). reflexivity.
  - destruct (nth_error (c_tasks c) t) as [x|] eqn:N; [|discriminate]. destruct (t_dl x) as [d|]; [|discriminate].
    assert (K : forall y r, after_turn c t y r = (c', o) -> map line (c_tasks c') = upd (map line (c_tasks c)) t (line y)) by (intros y r E; destruct r; cbn [after_turn] in E; injection E as <- _; cbn [c_tasks]; rewrite upd_map; reflexivity).
    destruct oc.
    + destruct (t_cmds x) as [|w cs] eqn:C; [discriminate|]. injection H as H. apply K in H. exists (t_peer x), w, cs. rewrite nth_error_map, N. cbn [option_map]. unfold line at 1. rewrite C. split; [reflexivity|exact H].
    + destruct (t_blocks x) as [|b bs]; [discriminate|]. injection H as H. apply K in H. rewrite H. apply upd_self. rewrite nth_error_map, N. reflexivity.
  - destruct (nth_error (c_tasks c) t) as [x|] eqn:N; [|discriminate]. destruct (t_dl x) as [d|]; [|discriminate]. destruct (_ || _); [|discriminate]. injection H as <- <-. cbn [with_task c_tasks]. apply (upd_line _ _ _ _ N). reflexivity.
Qed.

(** The map of the handle knows which downloader is for whom. *)
Definition named (c : con) : Prop := forall p t, omget p (c_map c) = Some t -> exists q, nth_error (lines c) t = Some (p, q).
Lemma named_same : forall c c', named c -> c_map c' = c_map c -> lines c' = lines c -> named c'.
Proof. intros c c' N M L p t H. rewrite M in H. rewrite L. exact (N p t H). Qed.
Lemma named_upd : forall c c' t p0 q q', named c -> c_map c' = c_map c -> nth_error (lines c) t = Some (p0, q) -> lines c' = upd (lines c) t (p0, q') -> named c'.
Proof.
  intros c c' t p0 q q' N M E L p u H. rewrite M in H. destruct (N p u H) as (z & Z). rewrite L, (nth_upd_at _ _ _ _ _ _ E). destruct (t =? u) eqn:X; [|eauto]. apply Nat.eqb_eq in X. subst. rewrite E in Z. injection Z as -> ->. eauto.
Qed.
Lemma named_step : forall c e c' o, cstep c e = Some (c', o) -> (forall p, e <> Disconnect p) -> named c -> named c'.
Proof.
  intros c e c' o H ND N. pose proof (con_lines _ _ _ _ H) as L.
  assert (K : (forall p, e <> Connect p) -> c_map c' = c_map c) by (intro NC; exact (map_kept _ _ _ _ _ _ H NC ND)).
  destruct e as [p|p|p b|p i h| |p m|t b|t|t oc now|t]; try (apply (named_same _ _ N); [apply K; intros; discriminate|exact L]).
  - destruct L as [[M L]|[M L]]; [apply (named_same _ _ N); auto|]. intros r t G. rewrite M in G. rewrite omget_set in G. rewrite L. destruct (addr_eqb r p) eqn:X.
    + apply addr_eqb_spec in X. injection G as <-. subst. exists []. rewrite nth_error_app2 by lia. rewrite Nat.sub_diag. reflexivity.
    + destruct (N r t G) as (q & Q). exists q. rewrite nth_error_app1; [exact Q|]. apply nth_error_Some. congruence.
  - destruct L as [L|(t & p0 & q & _ & E & L)]; [apply (named_same _ _ N); [apply K; intros; discriminate|exact L]|]. eapply named_upd; [exact N|apply K; intros; discriminate|exact E|exact L].
  - destruct oc; [|apply (named_same _ _ N); [apply K; intros; discriminate|exact L]]. destruct L as (p0 & w & q & E & L). eapply named_upd; [exact N|apply K; intros; discriminate|exact E|exact L].
Qed.
Lemma received_lines : forall c p m k, received sha1 checked c p m = Some k -> c_map k = c_map c /\ lines k = lines c.
Proof.
  intros c p m k R. destruct m; cbn [received] in R; try (injection R as <-; auto; fail);
    match type of R with option_map _ (cstep _ ?e) = _ => destruct (cstep c e) as [[k1 o1]|] eqn:S; [|discriminate] end; cbn [option_map fst] in R; injection R as <-;
    (split; [exact (map_kept _ _ _ _ _ _ S ltac:(intros; discriminate) ltac:(intros; discriminate))|exact (con_lines _ _ _ _ S)]).
Qed.
Lemma connects_lines : forall os c k, connects sha1 checked c os = Some k -> (named c -> named k) /\ forall t, match nth_error (lines k) t with Some x => snd x | None => [] end = match nth_error (lines c) t with Some x => snd x | None => [] end.
Proof.
  induction os as [|[p|p h i] os IH]; intros c k H; cbn [connects] in H; [injection H as <-; auto| |auto].
  destruct (cstep c (Connect p)) as [[c1 o1]|] eqn:S; [|discriminate]. destruct (IH _ _ H) as (A & B). split; [intro N; apply A; apply (named_step _ _ _ _ S); [intros; discriminate|exact N]|].
  intro t. rewrite B. destruct (con_lines _ _ _ _ S) as [[_ L]|[_ L]]; rewrite L; [reflexivity|]. destruct (Nat.lt_ge_cases t (length (lines c))) as [T|T]; [rewrite nth_error_app1 by exact T; reflexivity|].
  rewrite nth_error_app2 by exact T. rewrite (proj2 (nth_error_None (lines c) t) T). destruct (t - length (lines c)) as [|[|?]]; reflexivity.
Qed.

(** The checksums do not change. *)
Definition torrent_of (hs : list ID) (s : tor) : Prop := forall m, r_mgr s = Some m -> m_hashes m = hs.
Lemma add_hashes : forall ps m m' o, add_peers m ps = Val (m', o) -> m_hashes m' = m_hashes m.
Proof.
  induction ps as [|p ps IH]; intros m m' o H; cbn [add_peers] in H; [injection H as <- _; auto|]. destruct (pi_new _) as [i| |]; try discriminate. cbn [rbind] in H.
  destruct (add_peers _ ps) as [[m1 o1]| |] eqn:A; try discriminate. cbn [rmap fst snd] in H. injection H as <- _. apply IH in A. rewrite A. reflexivity.
Qed.
Lemma refresh_hashes : forall m t m' t' o, m_refresh m t = Val (m', t', o) -> m_hashes m' = m_hashes m.
Proof.
  intros m t m' t' o H. unfold m_refresh in H. destruct (_ <? _); [discriminate|]. destruct (_ =? 0); [injection H as <- _ _; auto|]. destruct (q_batch _ _ _) as [[t1 ps]| |]; try discriminate. cbn [rbind fst snd] in H.
  destruct (add_peers _ ps) as [[m1 o1]| |] eqn:A; try discriminate. cbn [rmap fst snd] in H. injection H as <- _ _. apply add_hashes in A. rewrite A. reflexivity.
Qed.
Lemma message_hashes : forall m p c m', handle_message m p c = Val m' -> m_hashes m' = m_hashes m.
Proof.
  intros m p c m' H. destruct c; cbn [handle_message] in H; try discriminate; try (injection H as <-; auto; fail);
    try (injection H as <-; unfold modify; destruct (aget _ _); auto; fail).
  - unfold mark_inactive in H. destruct (aget _ _); [|injection H as <-; auto]. destruct (bm_bits _); try discriminate. cbn [rbind] in H. destruct (freq_dec _ _); try discriminate. cbn [rbind] in H. injection H as <-. auto.
  - unfold mark_inactive in H. destruct (aget _ _); [|injection H as <-; auto]. destruct (bm_bits _); try discriminate. cbn [rbind] in H. destruct (freq_dec _ _); try discriminate. cbn [rbind] in H. injection H as <-. auto.
  - unfold handle_have in H. destruct (aget _ _); [|injection H as <-; auto]. destruct (bm_change _ _ _) as [r| |]; try discriminate. cbn [rbind] in H. destruct (snd r); [injection H as <-; auto|].
    destruct (freq_inc _ _); try discriminate. cbn [rmap] in H. injection H as <-. auto.
  - unfold accept_bitfield in H. destruct (aget _ _); [|injection H as <-; auto]. destruct (_ <? _)%N; [injection H as <-; auto|]. destruct (bm_replace_data _ _); try discriminate; [|injection H as <-; auto].
    destruct (bm_bits _); try discriminate. cbn [rbind] in H. destruct (freq_add _ _ _); try discriminate. cbn [rbind] in H. injection H as <-. auto.
Qed.
Lemma mark_hashes : forall m p i m', mark_ongoing m p i = Val m' -> m_hashes m' = m_hashes m.
Proof.
  intros m p i m' H. unfold mark_ongoing in H. destruct (match aget p (m_active m) with Some inf => Val inf | None => pi_new (bm_len (m_pieces m)) end) as [inf| |]; try discriminate. cbn [rbind] in H.
  destruct (bm_change (m_pieces m) i true) as [rp| |]; try discriminate. cbn [rbind] in H. destruct (bm_change (pi_working inf) i true) as [rw| |]; try discriminate. cbn [rbind] in H. injection H as <-. reflexivity.
Qed.

(** One step: the checksums, the map, and the queues. *)
Definition told (hs : list ID) (s : tor) (e : rev) (t : nat) (q q' : list cmd) : Prop :=
  q' = q \/ (exists now w, e = RTask (Turn t true now) /\ q = w :: q') \/
  (e = RPick /\ exists m p h i, r_mgr s = Some m /\ select_piece m = Val (Some (p, i, h)) /\ q' = q ++ [StartPiece h i] /\ exists x, nth_error (lines (r_con s)) t = Some (p, x)).
Definition known (hs : list ID) (s : tor) : Prop := torrent_of hs s /\ named (r_con s).
Lemma told_same : forall hs s e t s', lines (r_con s') = lines (r_con s) -> told hs s e t (queue s t) (queue s' t).
Proof. intros hs s e t s' L. left. rewrite !queue_lines, L. reflexivity. Qed.
Lemma named_dead : forall s c, named (r_con (tor_dead s c)).
Proof. intros s c p t H. discriminate. Qed.
Lemma take_known : forall hs s s0 m p c s' o e, take sha1 checked s0 m p c = Some (s', o) -> r_con s0 = r_con s -> r_mgr s = Some m -> known hs s -> known hs s' /\ forall t, told hs s e t (queue s t) (queue s' t).
Proof.
  intros hs s s0 m p c s' o e H E0 EM [T N]. unfold take in H. destruct (received sha1 checked (r_con s0) p c) as [k|] eqn:R; [|discriminate]. apply received_lines in R as [RM RL]. rewrite E0 in *.
  destruct (handle_message m p c) as [m'| |] eqn:HM; injection H as <- <-.
  - split; [split; [intros m1 X; injection X as <-; rewrite (message_hashes _ _ _ _ HM); apply T; exact EM|exact (named_same _ _ N RM RL)]|intro t; apply told_same; exact RL].
  - split; [split; [intros m1 X; discriminate|apply named_dead]|intro t; apply told_same; cbn [tor_dead r_con]; rewrite lines_dropped; exact RL].
  - split; [split; [intros m1 X; discriminate|apply named_dead]|intro t; apply told_same; cbn [tor_dead r_con]; rewrite lines_dropped; exact RL].
Qed.
Lemma dead_known : forall hs s s0 k e, (forall t, match nth_error (lines k) t with Some x => snd x | None => [] end = queue s t) ->
  known hs (tor_dead s0 k) /\ forall t, told hs s e t (queue s t) (queue (tor_dead s0 k) t).
Proof. intros hs s s0 k e L. split; [split; [intros m1 X; discriminate|apply named_dead]|]. intro t. left. rewrite queue_lines. cbn [tor_dead r_con]. rewrite lines_dropped. apply L. Qed.
Lemma step_known : forall hs s e s' o, step s e = Some (s', o) -> known hs s -> known hs s' /\ forall t, told hs s e t (queue s t) (queue s' t).
Proof.
  intros hs s e s' o H KN. pose proof KN as [T N]. destruct e as [q|p w|p| | | | |e|ks ks']; cbn [tor_step] in H.
  - destruct (q_step (r_tab s) q); try discriminate. injection H as <- <-. split; [exact KN|intro t; apply told_same; reflexivity].
  - destruct (r_mgr s) as [m|] eqn:E; [|discriminate]. destruct (r_phase s); try discriminate. destruct (con_of_message w); try discriminate. eapply take_known; eauto.
  - destruct (r_mgr s) as [m|] eqn:E; [|discriminate]. destruct (r_phase s); try discriminate. eapply take_known; eauto.
  - destruct (r_mgr s) as [m|] eqn:E; [|discriminate]. destruct (r_phase s); try discriminate. destruct (r_fin s) as [|[[p i] d] f]; [discriminate|]. eapply take_known; [exact H|reflexivity|exact E|exact KN].
  - destruct (r_mgr s) as [m|] eqn:E; [|discriminate]. destruct (r_phase s); try discriminate. destruct (m_refresh m (r_tab s)) as [[[m1 t1] os]| |] eqn:R;
      [|injection H as <- <-; apply dead_known; intro t; symmetry; apply queue_lines..].
    destruct (connects sha1 checked (r_con s) os) as [k|] eqn:K; [|discriminate]. apply connects_lines in K as [KN1 KL].
    assert (Q : forall t, match nth_error (lines k) t with Some x => snd x | None => [] end = queue s t) by (intro t; rewrite KL, queue_lines; reflexivity).
    destruct (_ <? _); injection H as <- <-; [apply dead_known; exact Q|]. split; [split; [intros m2 X; injection X as <-; rewrite (refresh_hashes _ _ _ _ _ R); apply T; exact E|exact (KN1 N)]|].
    intro t. left. rewrite <- Q. rewrite queue_lines. reflexivity.
  - destruct (r_mgr s) as [m|] eqn:E; [|discriminate].
    assert (SAME : forall ph, let s1 := mk_tor (Some m) (r_tab s) (r_con s) ph (r_fin s) in known hs s1 /\ forall t, told hs s RPick t (queue s t) (queue s1 t)).
    { intros ph. split; [split; [intros m2 X; injection X as <-; apply T; exact E|exact N]|intro t; apply told_same; reflexivity]. }
    destruct (r_phase s) as [|[|n]|]; try discriminate; [injection H as <- <-; apply SAME|].
    destruct (select_piece m) as [[[[p i] h]|]| |] eqn:SP; [|injection H as <- <-; first [apply SAME|apply dead_known; intro t; symmetry; apply queue_lines]..].
    destruct (cstep (r_con s) (Download p i h)) as [[k o1]|] eqn:S; [|discriminate]. injection H as <- <-.
    split; [split; [intros m2 X; injection X as <-; apply T; exact E|apply (named_step _ _ _ _ S); [intros; discriminate|exact N]]|].
    intro t. destruct (con_lines _ _ _ _ S) as [L|(u & p0 & q & G & NE & L)]; [apply told_same; exact L|]. rewrite !queue_lines. cbn [r_con]. rewrite L, (nth_upd_at _ _ _ _ _ _ NE). destruct (u =? t) eqn:X; [|left; reflexivity].
    apply Nat.eqb_eq in X. subst u. right. right. split; [reflexivity|]. exists m, p, h, i. rewrite NE. cbn [snd]. split; [exact E|]. split; [exact SP|]. split; [reflexivity|]. destruct (N _ _ G) as (z & Z). rewrite NE in Z. injection Z as -> ->. exists z. reflexivity.
  - destruct (r_mgr s) as [m|] eqn:E; [|discriminate]. destruct (r_phase s) as [| |n p i]; try discriminate. destruct (cstep (r_con s) AddPiece) as [[k o1]|] eqn:S; [|discriminate]. pose proof (con_lines _ _ _ _ S) as L.
    assert (Q : forall t, match nth_error (lines k) t with Some x => snd x | None => [] end = queue s t) by (intro t; rewrite L, queue_lines; reflexivity).
    destruct (c_main k); [|injection H as <- <-; apply dead_known; exact Q..]. destruct (mark_ongoing m p i) as [m1| |] eqn:MO; injection H as <- <-; [|apply dead_known; exact Q..].
    split; [split; [intros m2 X; injection X as <-; rewrite (mark_hashes _ _ _ _ MO); apply T; exact E|apply (named_step _ _ _ _ S); [intros; discriminate|exact N]]|intro t; apply told_same; exact L].
  - destruct (task_event e) eqn:TE; [|discriminate]. destruct (cstep (r_con s) e) as [[k o1]|] eqn:S; [|discriminate]. injection H as <- <-. split; [split; [exact T|apply (named_step _ _ _ _ S); [intros p ->; discriminate|exact N]]|].
    intro t. pose proof (con_lines _ _ _ _ S) as L. destruct e as [p|p|p b|p i h| |p m|u b|u|u oc now|u]; try discriminate TE; try (apply told_same; exact L).
    destruct oc; [|apply told_same; exact L]. destruct L as (p0 & w & q & NE & L). rewrite !queue_lines. cbn [r_con]. rewrite L, (nth_upd_at _ _ _ _ _ _ NE). destruct (u =? t) eqn:X; [|left; reflexivity].
    apply Nat.eqb_eq in X. subst u. right. left. exists now, w. rewrite NE. auto.
  - injection H as <- <-. split; [split; [|exact N]|intro t; apply told_same; reflexivity]. intros m1 X. cbn [r_mgr] in X. destruct (r_mgr s) as [m|] eqn:E; [|discriminate]. cbn [option_map] in X. injection X as <-. cbn [with_active m_hashes]. apply T. exact E.
Qed.
Lemma reach_known : forall hs s, tor_reach sha1 checked hs s -> known hs s.
Proof.
  intros hs s (pl & s0 & es & tr & NW & R). assert (K0 : known hs s0).
  { unfold tor_new in NW. destruct (m_init hs) as [mi| |] eqn:MI; try discriminate. cbn [rbind] in NW. unfold con_new in NW. destruct (pp_new pl); try discriminate. cbn [rmap] in NW. injection NW as <-.
    split; [|intros p t H; discriminate]. intros m X. injection X as <-. unfold m_init in MI. destruct (bm_new _); try discriminate. cbn [rbind] in MI. injection MI as <-. reflexivity. }
  clear NW. revert s0 tr K0 R. induction es as [|e es IH]; intros s0 tr K0 R; cbn [tor_run] in R; [injection R as <- <-; exact K0|].
  destruct (step s0 e) as [[s1 o]|] eqn:S; [|discriminate]. destruct (run s1 es) as [[s2 t2]|] eqn:R2; [|discriminate]. cbn [option_map fst snd] in R. injection R as <- <-. eapply IH; [|exact R2]. eapply step_known; eauto.
Qed.

(** ** Theorems *)
(** At every moment, also between two assignments of a tick: at most ten active peers
    and nine active pieces; the piece being added fits too. *)
Theorem C29_running : forall hs s m, tor_reach sha1 checked hs s -> r_mgr s = Some m ->
  length (m_active m) <= 10 /\ count_true (bits (m_pieces m)) <= 9 /\
  match r_phase s with Waiting => True | Picking k => count_true (bits (m_pieces m)) + k <= 9 | Adding k _ _ => count_true (bits (m_pieces m)) + S k <= 9 end.
Proof.
  intros hs s m RE E. destruct (reach_tinv RE) as [_ _ _ _ V]. rewrite E in V. destruct V as (I & _ & P).
  assert (W : N.to_nat (bm_weight (m_pieces m)) = count_true (bits (m_pieces m))) by apply bm_weight_spec.
  pose proof (i_weight I). split; [exact (i_size I)|]. split; [lia|]. unfold weight in P. rewrite W in P. destruct (r_phase s); [exact Logic.I|lia..].
Qed.
(** At every moment no piece is counted for fewer peers than announced it. *)
Theorem C30_running : forall hs s m i, tor_reach sha1 checked hs s -> r_mgr s = Some m -> i < length hs ->
  (N.of_nat (holders (m_active m) i) <= nth i (m_freq m) 0)%N.
Proof. intros hs s m i RE E H. destruct (reach_tinv RE) as [_ _ _ _ V]. rewrite E in V. destruct V as (I & _). exact (i_count I H). Qed.
(** What is queued for a downloader: a step leaves it as it is, or the downloader takes
    the first command, or the manager adds at the end the start of a piece of the
    torrent, with its checksum, that the client does not have and that the
    downloader's peer has announced and does not choke us from. *)
Theorem C31_told : forall hs s e s' o t, tor_reach sha1 checked hs s -> step s e = Some (s', o) ->
  queue s' t = queue s t \/
  (exists now c, e = RTask (Turn t true now) /\ queue s t = c :: queue s' t) \/
  (e = RPick /\ exists p h i, queue s' t = queue s t ++ [StartPiece h i] /\ serves s t p /\ nth_error hs i = Some h /\ ~ held s i /\ offers s p i).
Proof.
  intros hs s e s' o t RE S. pose proof (reach_known _ _ RE) as KN. destruct (step_known _ _ _ _ _ S KN) as (_ & K). destruct (K t) as [A|[A|(EP & m & p & h & i & E & SP & Q & x & X)]]; [auto|auto|].
  right. right. split; [exact EP|]. exists p, h, i. split; [exact Q|]. split; [unfold lines in X; rewrite nth_error_map in X; destruct (nth_error (c_tasks (r_con s)) t) as [y|] eqn:Y; [|discriminate]; injection X as X _; exists y; auto|].
  destruct (reach_tinv RE) as [_ _ _ _ V]. rewrite E in V. destruct V as (I & _). pose proof (i_local I) as BO.
  destruct (@C31_selection_sound m p i h) as (_ & P & H & inf & IN & CH & HV & _); [rewrite (bo_len BO); exact (bm_ok_room BO)|exact SP|].
  rewrite (proj1 KN _ E) in H. split; [exact H|]. split; [intros (m2 & E2 & P2); rewrite E in E2; injection E2 as <-; exact (P P2)|]. exists m, inf. auto.
Qed.
(** So all that ever waits for a downloader are pieces of the torrent with their
    checksums. *)
Theorem C31_waiting : forall hs s t c, tor_reach sha1 checked hs s -> In c (queue s t) -> exists h i, c = StartPiece h i /\ nth_error hs i = Some h.
Proof.
  intros hs s t c (pl & s0 & es & tr & NW & R). revert s tr R. induction es as [|e es IH] using List.rev_ind; intros s tr R H.
  - cbn [tor_run] in R. injection R as <- _. unfold tor_new in NW. destruct (m_init hs); try discriminate. cbn [rbind] in NW. unfold con_new in NW. destruct (pp_new pl); try discriminate. cbn [rmap] in NW. injection NW as <-.
    unfold queue in H. cbn [r_con c_tasks] in H. destruct t; destruct H.
  - assert (G : forall a b s0 s tr, run s0 (a ++ b) = Some (s, tr) -> exists s1 t1 t2, run s0 a = Some (s1, t1) /\ run s1 b = Some (s, t2)).
    { clear. induction a as [|x a IH]; intros b s0 s tr R; [cbn [app] in R; exists s0, [], tr; auto|]. cbn [app tor_run] in R. destruct (step s0 x) as [[s1 o]|] eqn:S; [|discriminate]. destruct (run s1 (a ++ b)) as [[s2 t2]|] eqn:R2; [|discriminate].
      cbn [option_map fst snd] in R. injection R as <- <-. destruct (IH _ _ _ _ R2) as (s3 & t3 & t4 & A & B). exists s3, ((x, o) :: t3), t4. cbn [tor_run]. rewrite S, A. auto. }
    destruct (G _ _ _ _ _ R) as (s1 & t1 & t2 & A & B). cbn [tor_run] in B. destruct (step s1 e) as [[s2 o]|] eqn:S; [|discriminate]. cbn [option_map fst snd] in B. injection B as <- _.
    assert (RE : tor_reach sha1 checked hs s1) by (exists pl, s0, es, t1; auto).
    destruct (C31_told hs s1 e s2 o t RE S) as [Q|[(now & w & _ & Q)|(_ & p & h & i & Q & _ & HH & _)]].
    + rewrite Q in H. eapply IH; eauto.
    + eapply IH; [exact A|]. rewrite Q. right. exact H.
    + rewrite Q in H. apply in_app_or in H as [H|[<-|[]]]; [eapply IH; eauto|eauto].
Qed.
End Queue.

(** Two seeders have joined; the tick tells the first of them to fetch the piece. *)
Example C31_told_example : forall sha1 checked, exists s s' o m, tor_reach sha1 checked [ex_id] s /\ tor_step sha1 checked s RPick = Some (s', o) /\ r_mgr s = Some m /\
  queue s 0 = [] /\ queue s' 0 = [StartPiece ex_id 0] /\ serves s 0 ex_s1 /\ m_active m <> [].
Proof.
  intros sha1 checked. assert (X : exists s0 s tr s' o m, tor_new [ex_id] 5 = Val s0 /\ tor_run sha1 checked s0 (ex_joined ++ [RTick]) = Some (s, tr) /\ tor_step sha1 checked s RPick = Some (s', o) /\ r_mgr s = Some m /\
    queue s 0 = [] /\ queue s' 0 = [StartPiece ex_id 0] /\ serves s 0 ex_s1 /\ m_active m <> []).
  { do 6 eexists. split; [vm_compute; reflexivity|]. split; [vm_compute; reflexivity|]. split; [vm_compute; reflexivity|]. split; [reflexivity|]. split; [reflexivity|]. split; [reflexivity|].
    split; [eexists; split; reflexivity|]. intro H. vm_compute in H. discriminate. }
  destruct X as (s0 & s & tr & s' & o & m & N & R & X). exists s, s', o, m. split; [do 4 eexists; split; [exact N|exact R]|exact X].
Qed.
Print Assumptions C29_running.
Print Assumptions C30_running.
Print Assumptions C31_told.
Print Assumptions C31_waiting.
