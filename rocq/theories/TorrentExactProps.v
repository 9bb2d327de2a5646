(** C101 continued: exactly the steps that end the torrent manager of a
    session with its downloaders. *)
From Coq Require Import List NArith ZArith Lia Bool Arith.
From Coq Require Import Init.Byte.
From Verif Require Import Base Assoc BitmapModel BitmapProofs IdModel WireModel PeersModel PeersSpec PeersProofs PeersProps ManagerModel ManagerSpec ManagerProofs ManagerProofs2 ManagerProps FatalProps PendingModel PendingSpec PendingProofs ConnModel ConnSpec ConnProps ClientModel ClientInvProps TorrentModel TorrentSpec TorrentProps.
Import ListNotations.
Set Implicit Arguments.

(** What the manager must be about to do to end: take a message that aborts it
    ([FatalProps.fatal], stated of its tables alone), or start a piece when a
    downloader has panicked with the lock. *)
Definition ends_manager (n : nat) (s : tor) (m : mgr) (e : rev) : Prop :=
  match e with
  | RMsg p w => exists c, con_of_message w = Val c /\ FatalProps.fatal n m p c
  | RAdd => c_poisoned (r_con s) = true
  | _ => False
  end.
Theorem C101_exact : forall sha1 checked hs s m e s' o, tor_reach sha1 checked hs s -> r_mgr s = Some m -> tor_step sha1 checked s e = Some (s', o) ->
  (r_mgr s' = None <-> ends_manager (length hs) s m e).
Proof.
  intros sha1 checked hs s m e s' o R E S. pose proof (v_mgr (reach_tinv R)) as V. rewrite E in V. destruct V as (I & _ & V). split.
  - intro D. destruct (@C101_causes _ _ _ _ _ _ _ R S) as [(m1 & p & w & c & E1 & -> & CW & B)|(-> & P)]; [congruence|auto| |exact P].
    rewrite E in E1. injection E1 as <-. exists c. split; [auto|]. destruct (@fatal_exact (length hs) m p c I) as [F1 F2].
    destruct (handle_message m p c) as [m'| |] eqn:H; [exfalso; eapply B; reflexivity| |apply F1; reflexivity].
    exfalso. assert (NF : ~ FatalProps.fatal (length hs) m p c) by (intro X; apply F1 in X; discriminate). destruct (F2 NF). discriminate.
  - destruct e as [q|p w|p| | | | |e|ks ks']; cbn [ends_manager]; try contradiction.
    + intros (c & CW & F). cbn [tor_step] in S. rewrite E in S. destruct (r_phase s); try discriminate. rewrite CW in S. unfold take in S.
      rewrite (proj2 (proj1 (@fatal_exact (length hs) m p c I)) F) in S. destruct (received _ _ _ _ _); [|discriminate]. injection S as <- _. reflexivity.
    + intro P. destruct (r_phase s) as [|k|k p i] eqn:PH; [cbn [tor_step] in S; rewrite E, PH in S; discriminate..|].
      destruct (@C101_next_start_fatal sha1 checked hs s k p i R P) as (s1 & S1 & D); [congruence|auto|]. congruence.
Qed.

Section Turns.
Variable sha1 : bytes -> ID.
Variable checked : bool.
Notation cstep := (con_step sha1 checked).
Notation tstep := (tor_step sha1 checked).

(** ** C87: exactly the turns that poison the lock *)
(** Every fifth turn of a downloader whose pieces, with the one of the command
    it takes, are in flight. *)
Definition fatal_turn (c : con) (e : ev) : Prop :=
  exists t on_cmd now x d k, e = Turn t on_cmd now /\ nth_error (c_tasks c) t = Some x /\ t_dl x = Some d /\ dl_counter d mod 5 = 0 /\ in_flight (c_pp c) k /\
    (In k (keys (dl_pieces d)) \/ exists h cs, t_cmds x = StartPiece h k :: cs /\ on_cmd = true).
(** No downloader is ever told to stop. *)
Definition starts_only (c : con) : Prop := forall x i, In x (c_tasks c) -> ~ In (StopPiece i) (t_cmds x).
Lemma upd_starts : forall (ts : list task) t x, (forall y i, In y ts -> ~ In (StopPiece i) (t_cmds y)) -> (forall i, ~ In (StopPiece i) (t_cmds x)) -> forall y i, In y (upd ts t x) -> ~ In (StopPiece i) (t_cmds y).
Proof.
  induction ts as [|z ts IH]; intros t x A B y i; [destruct t; cbn; tauto|]. destruct t as [|t]; cbn [upd In]; intros [<-|I]; auto.
  - apply A. cbn. auto.
  - apply A. cbn. auto.
  - eapply IH; eauto. intros. apply A. cbn. auto.
Qed.
Lemma step_starts : forall c e c' o, starts_only c -> cstep c e = Some (c', o) -> starts_only c'.
Proof.
  intros c e c' o S H. assert (K : forall t x, nth_error (c_tasks c) t = Some x -> forall i, ~ In (StopPiece i) (t_cmds x)) by (intros t x N i; apply S; eapply nth_error_In; eauto).
  destruct e as [p|p|p b|p i h| |p m|t b|t|t oc now|t]; cbn [con_step] in H.
  - destruct (c_main c); try discriminate. destruct (omget p (c_map c)); injection H as <- _; [exact S|]. intros x i I. cbn in I. apply in_app_or in I. destruct I as [I|[<-|[]]]; [apply S; auto|cbn; tauto].
  - destruct (c_main c); try discriminate. destruct (omget p (c_map c)); [|injection H as <- _; exact S]. destruct (nth_error _ _) as [x|] eqn:N; [|discriminate]. injection H as <- _. unfold starts_only. apply upd_starts; [exact S|cbn; eauto].
  - destruct (c_main c); try discriminate. destruct (omget p (c_map c)); [|injection H as <- _; exact S]. destruct (nth_error _ _) as [x|] eqn:N; [|discriminate]. injection H as <- _. unfold starts_only. apply upd_starts; [exact S|cbn; eauto].
  - destruct (c_main c); try discriminate. destruct (omget p (c_map c)); [|injection H as <- _; exact S]. destruct (nth_error _ _) as [x|] eqn:N; [|discriminate]. destruct (t_dl x); [|injection H as <- _; exact S]. destruct (_ <=? _); [discriminate|].
    injection H as <- _. unfold starts_only. apply upd_starts; [exact S|]. cbn [t_cmds]. intros j J. apply in_app_or in J. destruct J as [J|[J|[]]]; [eapply K; eauto|discriminate].
  - destruct (c_main c); try discriminate. destruct (c_poisoned c); [injection H as <- _; exact S|]. destruct (pp_add_piece _ _); injection H as <- _; exact S.
  - destruct (c_main c); try discriminate. destruct (negb _); [discriminate|]. destruct (omget p (c_map c)); [|injection H as <- _; exact S]. destruct (nth_error _ _); [|discriminate]. injection H as <- _. exact S.
  - destruct (nth_error _ _) as [x|] eqn:N; [|discriminate]. destruct (_ && _); [|discriminate]. injection H as <- _. unfold starts_only. apply upd_starts; [exact S|cbn; eauto].
  - destruct (nth_error _ _) as [x|] eqn:N; [|discriminate]. injection H as <- _. unfold starts_only. apply upd_starts; [exact S|cbn; eauto].
  - destruct (nth_error _ _) as [x|] eqn:N; [|discriminate]. destruct (t_dl x) as [d|]; [|discriminate].
    assert (A : forall y r, (forall i, ~ In (StopPiece i) (t_cmds y)) -> after_turn c t y r = (c', o) -> starts_only c').
    { intros y r Y E. destruct r; cbn [after_turn] in E; injection E as <- _; unfold starts_only; apply upd_starts; auto. }
    destruct oc; [destruct (t_cmds x) as [|w cs] eqn:CM|destruct (t_blocks x) as [|b bs]]; try discriminate; injection H as H; (eapply A; [|exact H]); cbn [t_cmds]; [|eapply K; eauto].
    intros i I. eapply K; [exact N|]. rewrite CM. right. exact I.
  - destruct (nth_error _ _) as [x|] eqn:N; [|discriminate]. repeat match type of H with (match ?b with _ => _ end) = _ => destruct b; try discriminate end; injection H as <- _; unfold starts_only; apply upd_starts; [exact S|cbn; eauto].
Qed.
Lemma poison_exact : forall c e c' o, quiet c -> starts_only c -> c_poisoned c = false -> cstep c e = Some (c', o) -> (c_poisoned c' = true <-> fatal_turn c e).
Proof.
  intros c e c' o Q ST P H. split.
  - intro P'. pose proof Q as [O W U T]. destruct (@poison_from _ _ _ _ _ _ Q P H P') as (t & oc & now & k0 & -> & _ & _). cbn [con_step] in H.
    destruct (nth_error (c_tasks c) t) as [x|] eqn:N; [|discriminate]. destruct (t_dl x) as [d|] eqn:D; [|discriminate]. pose proof (T _ _ (nth_error_In _ _ N) D) as B0.
    assert (K : forall y e, after_turn c t y (dl_turn sha1 checked (c_poisoned c) now (c_pp c) d e) = (c', o) ->
      exists d1 k, dl_handle sha1 checked (c_pp c) d e = Val (c_pp c, d1, []) /\ dl_counter d1 mod 5 = 0 /\ In k (keys (dl_pieces d1)) /\ in_flight (c_pp c) k).
    { intros y e E. assert (TU : exists d1, dl_handle sha1 checked (c_pp c) d e = Val (c_pp c, d1, []) /\ wants_lock (c_pp c) d e = None).
      { destruct e as [b|hh i|i]; cbn [dl_handle wants_lock]; eauto. unfold dl_block. destruct (negb _); eauto. destruct (dmget _ _); eauto. rewrite B0. cbn. eauto. }
      destruct TU as (d1 & E1 & E2). unfold dl_turn in E. rewrite E1, E2, P in E. change (ACTIVE_BLOCKS_PER_PEER / 3) with 5 in E.
      destruct (Nat.eqb_spec (dl_counter d1 mod 5) 0) as [CN|CN]; [|cbn [after_turn] in E; injection E as <- _; cbn in P'; congruence].
      destruct (pp_take (c_pp c) now (keys (dl_pieces d1)) (dl_blocks d1) (dl_cap d1)) as [[[s2 bl] cp]| |] eqn:TK; [cbn [after_turn] in E; injection E as <- _; cbn in P'; congruence| |].
      - exfalso. unfold pp_take in TK. rewrite O in TK. destruct (take_pass is_unbegun None now (keys (dl_pieces d1)) (pp_data (c_pp c))) as [r1| |] eqn:T1; cbn [rbind] in TK; try discriminate; [|eapply take_pass_none_total; eauto].
        destruct (_ =? _); [discriminate|]. destruct (take_pass (is_expired now) None now (keys (dl_pieces d1)) (fst r1)) as [r2| |] eqn:T2; try discriminate. eapply take_pass_none_total; eauto.
      - unfold pp_take in TK. rewrite O in TK. destruct (take_pass is_unbegun None now (keys (dl_pieces d1)) (pp_data (c_pp c))) as [r1| |] eqn:T1; cbn [rbind] in TK; try discriminate.
        + pose proof (take_pass_none _ _ _ _ T1) as ->. cbn [fst] in TK. destruct (_ =? _); [discriminate|]. destruct (take_pass (is_expired now) None now (keys (dl_pieces d1)) (pp_data (c_pp c))) as [r2| |] eqn:T2; try discriminate.
          apply take_pass_panic in T2. destruct T2 as (k & A & B). exists d1, k. auto.
        + apply take_pass_panic in T1. destruct T1 as (k & A & B). exists d1, k. auto. }
    destruct oc; [destruct (t_cmds x) as [|w cs] eqn:CM|destruct (t_blocks x) as [|b bs]]; try discriminate; injection H as H; apply K in H; destruct H as (d1 & k & HD & CN & A & B); exists t.
    + exists true, now, x, d, k. destruct w as [hh i|i]; [|exfalso; eapply ST; [eapply nth_error_In; exact N|rewrite CM; left; reflexivity]].
      cbn [cmd_event dl_handle] in HD. injection HD as <-. cbn [dl_pieces dl_counter] in A, CN. repeat (split; [auto|]).
      unfold keys, dmset in A. fold (keys (mset Nat.eqb i hh (dl_pieces d))) in A. rewrite keys_mset in A. destruct (mhas _ _ _); [auto|]. apply in_app_or in A. destruct A as [A|[<-|[]]]; [auto|]. right. rewrite CM. eauto.
    + exists false, now, x, d, k. assert (d1 = d) as ->; [|repeat (split; [auto|]); auto]. cbn [dl_handle] in HD. unfold dl_block in HD. destruct (negb _); [congruence|]. destruct (dmget _ _); [|congruence]. rewrite B0 in HD. cbn in HD. congruence.
  - intros (t & oc & now & x & d & k & -> & N & D & CN & F & A). eapply (@turn_fatal sha1 checked c t x d k oc now c' o); eauto. destruct A as [A|A]; [left|right; exact A]. split; [auto|].
    intros i cs E. eapply ST; [eapply nth_error_In; exact N|rewrite E; left; reflexivity].
Qed.
Theorem C87_exact : forall pl c0 h c tr e c' o, con_new pl = Val c0 -> con_run sha1 checked c0 h = Some (c, tr) -> c_poisoned c = false -> cstep c e = Some (c', o) ->
  (c_poisoned c' = true <-> fatal_turn c e).
Proof.
  intros pl c0 h c tr e c' o N R P H. apply poison_exact with (o := o); auto; [eapply run_quiet; eauto|].
  eapply (@ConnProps.run_inv sha1 checked starts_only); [intros; eapply step_starts; eauto| |exact R]. unfold con_new in N. destruct (pp_new pl); try discriminate. injection N as <-. intros x i [].
Qed.

(** ** C101 *)
Lemma connects_starts : forall os c c', starts_only c -> connects sha1 checked c os = Some c' -> starts_only c'.
Proof.
  induction os as [|[p|p h i] os IH]; intros c c' S H; cbn [connects] in H; [injection H as <-; auto| |eauto]. destruct (cstep c (Connect p)) as [[c1 o1]|] eqn:E; [|discriminate]. eapply IH; [|exact H]. eapply step_starts; eauto.
Qed.
Lemma received_starts : forall c p m c', starts_only c -> received sha1 checked c p m = Some c' -> starts_only c'.
Proof.
  intros c p m c' S H. destruct m; cbn [received] in H; try (injection H as <-; exact S).
  all: match type of H with option_map _ ?x = _ => destruct x as [[c1 o1]|] eqn:E end; cbn in H; try discriminate; injection H as <-; eapply step_starts; eauto.
Qed.
Lemma dropped_starts : forall c, starts_only c -> starts_only (con_dropped c).
Proof. intros c S x i I. cbn in I. apply in_map_iff in I. destruct I as (y & <- & I). cbn. apply S; auto. Qed.
Lemma tor_starts : forall s e s' o, starts_only (r_con s) -> tstep s e = Some (s', o) -> starts_only (r_con s').
Proof.
  intros s e s' o S H. assert (T : forall s1 m p c, r_con s1 = r_con s -> take sha1 checked s1 m p c = Some (s', o) -> starts_only (r_con s')).
  { intros s1 m p c X E. unfold take in E. destruct (received _ _ _ _ _) as [k|] eqn:K; [|discriminate]. assert (starts_only k) by (eapply received_starts; [|exact K]; rewrite X; exact S). destruct (handle_message m p c); injection E as <- _; cbn [r_con tor_dead]; auto using dropped_starts. }
  destruct e as [q|p w|p| | | | |e|ks ks']; cbn [tor_step] in H.
  - destruct (q_step _ _); try discriminate. injection H as <- _. exact S.
  - destruct (r_mgr s); [|discriminate]. destruct (r_phase s); try discriminate. destruct (con_of_message w); try discriminate. eauto.
  - destruct (r_mgr s); [|discriminate]. destruct (r_phase s); try discriminate. eauto.
  - destruct (r_mgr s); [|discriminate]. destruct (r_phase s); try discriminate. destruct (r_fin s) as [|[[p i] d] f]; [discriminate|]. eapply T; [|exact H]. reflexivity.
  - destruct (r_mgr s); [|discriminate]. destruct (r_phase s); try discriminate. destruct (m_refresh _ _) as [[[m1 t1] os]| |]; try (injection H as <- _; cbn [r_con tor_dead]; auto using dropped_starts).
    destruct (connects _ _ _ _) as [k|] eqn:K; [|discriminate]. pose proof (@connects_starts _ _ _ S K). destruct (_ <? _); injection H as <- _; cbn [r_con tor_dead]; auto using dropped_starts.
  - destruct (r_mgr s) as [m|]; [|discriminate]. destruct (r_phase s) as [|[|n]|]; try discriminate; [injection H as <- _; exact S|]. destruct (select_piece m) as [[[[p i] h]|]| |]; try (injection H as <- _; cbn [r_con tor_dead]; auto using dropped_starts).
    destruct (cstep (r_con s) (Download p i h)) as [[k o1]|] eqn:K; [|discriminate]. injection H as <- _. eapply step_starts; eauto.
  - destruct (r_mgr s) as [m|]; [|discriminate]. destruct (r_phase s) as [| |n p i]; try discriminate. destruct (cstep (r_con s) AddPiece) as [[k o1]|] eqn:K; [|discriminate]. assert (starts_only k) by (eapply step_starts; eauto).
    destruct (c_main k); [destruct (mark_ongoing m p i)| |]; injection H as <- _; cbn [r_con tor_dead]; auto using dropped_starts.
  - destruct (task_event e); [|discriminate]. destruct (cstep (r_con s) e) as [[k o1]|] eqn:K; [|discriminate]. injection H as <- _. eapply step_starts; eauto.
  - injection H as <- _. exact S.
Qed.
Lemma reach_starts : forall hs s, tor_reach sha1 checked hs s -> starts_only (r_con s).
Proof.
  intros hs s (pl & s0 & es & tr & N & R). assert (S0 : starts_only (r_con s0)).
  { unfold tor_new in N. destruct (m_init hs); try discriminate. cbn [rbind] in N. unfold con_new in N. destruct (pp_new pl); try discriminate. injection N as <-. intros x i []. }
  clear N. revert s0 tr R S0. induction es as [|e es IH]; intros s0 tr R S0; [cbn in R; injection R as <- _; auto|]. apply run_cons_t in R. destruct R as (s1 & o & t1 & S & R & _). cbn [fst] in R. eapply IH; [exact R|]. eapply tor_starts; eauto.
Qed.
(** ... and exactly the steps that let the next such start be fatal. *)
Theorem C101_poison_exact : forall hs s e s' o, tor_reach sha1 checked hs s -> tstep s e = Some (s', o) -> c_poisoned (r_con s) = false ->
  (c_poisoned (r_con s') = true <-> exists e', e = RTask e' /\ fatal_turn (r_con s) e').
Proof.
  intros hs s e s' o R H P. split.
  - intro P'. destruct (@C101_poison_source _ _ _ _ _ _ _ R H P P') as (t & oc & now & k & -> & _). exists (Turn t oc now). split; [auto|]. cbn [tor_step task_event] in H. destruct (cstep (r_con s) (Turn t oc now)) as [[c1 o1]|] eqn:C; [|discriminate]. injection H as <- _. cbn [r_con] in P'.
    apply (@poison_exact _ _ _ _ (v_quiet (reach_tinv R)) (@reach_starts _ _ R) P C). exact P'.
  - intros (e' & -> & F). pose proof F as (t & oc & now & x & d & k & -> & _). cbn [tor_step task_event] in H. destruct (cstep (r_con s) (Turn t oc now)) as [[c1 o1]|] eqn:C; [|discriminate]. injection H as <- _. cbn [r_con].
    apply (@poison_exact _ _ _ _ (v_quiet (reach_tinv R)) (@reach_starts _ _ R) P C). exact F.
Qed.
End Turns.

(** After the joins of two seeders a request ends the manager, a have does not... *)
Example C101_exact_example : forall sha1 checked, exists s m s1 o1 s2 o2, tor_reach sha1 checked [ex_id] s /\ r_mgr s = Some m /\
  tor_step sha1 checked s (RMsg ex_s1 (Request (mk_request 0 0 0))) = Some (s1, o1) /\ ends_manager 1 s m (RMsg ex_s1 (Request (mk_request 0 0 0))) /\
  tor_step sha1 checked s (RMsg ex_s1 (Have 0)) = Some (s2, o2) /\ r_mgr s2 <> None.
Proof.
  intros sha1 checked. do 6 eexists. split; [exists 5; eexists; exists ex_joined; eexists; split; vm_compute; reflexivity|].
  split; [reflexivity|]. split; [vm_compute; reflexivity|]. split; [eexists; split; [reflexivity|exact I]|]. split; [vm_compute; reflexivity|]. discriminate.
Qed.
(** ... and once a piece has been started the next turn poisons the lock. *)
Example C101_turn_example : forall sha1 checked, exists s s' o, tor_reach sha1 checked [ex_id] s /\ c_poisoned (r_con s) = false /\
  tor_step sha1 checked s (RTask (Turn 0 true 2)) = Some (s', o) /\ fatal_turn (r_con s) (Turn 0 true 2).
Proof.
  intros sha1 checked. destruct (C101_example sha1 checked) as (s & x & d & R & N & D & C & F & CM & P & _ & s' & o & S & _). exists s, s', o. repeat (split; [assumption|]).
  exists 0, true, 2, x, d, 0. rewrite CM. repeat (split; [auto|]). right. eauto.
Qed.

Print Assumptions C101_exact.
Print Assumptions C87_exact.
Print Assumptions C101_poison_exact.
