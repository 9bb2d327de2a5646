(** C58, C87: choking, and whether assigned pieces are requested. *)
From Coq Require Import List NArith ZArith Lia Bool Arith.
From Verif Require Import Base Assoc BitmapModel IdModel WireModel PendingModel PendingSpec PendingProofs ConnModel ConnSpec.
Import ListNotations.
Set Implicit Arguments.

Section Props.
Variable sha1 : bytes -> ID.
Variable checked : bool.
Notation step := (con_step sha1 checked).
Notation run := (con_run sha1 checked).

Lemma run_cons : forall s e h r, run s (e :: h) = Some r -> exists s' o tr, step s e = Some (s', o) /\ run s' h = Some (fst r, tr) /\ snd r = (e, o) :: tr.
Proof.
  intros s e h r H. cbn [con_run] in H. destruct (step s e) as [[s' o]|]; [|discriminate]. destruct (run s' h) as [[s'' tr]|] eqn:R; [|discriminate].
  cbn in H. injection H as <-. exists s', o, tr. auto.
Qed.
Lemma run_events : forall h s s' tr, run s h = Some (s', tr) -> map fst tr = h.
Proof.
  induction h as [|e h IH]; intros s s' tr H.
  - cbn in H. injection H as _ <-. reflexivity.
  - apply run_cons in H. destruct H as (s1 & o1 & tr1 & S & R & E). cbn [fst snd] in *. subst tr. cbn [map fst]. f_equal. eauto.
Qed.
(** Every step of a run, with the state before it. *)
Lemma run_split : forall h s s' a e o b, run s h = Some (s', a ++ (e, o) :: b) -> exists m m', run s (map fst a) = Some (m, a) /\ step m e = Some (m', o) /\ run m' (map fst b) = Some (s', b).
Proof.
  induction h as [|e0 h IH]; intros s s' a e o b H.
  - cbn in H. injection H as <- X. destruct a; discriminate.
  - apply run_cons in H. destruct H as (s1 & o1 & tr & S & R & E). cbn [fst snd] in *. destruct a as [|[e1 o2] a]; cbn [app] in E; injection E as <- <- <-.
    + exists s, s1. cbn [map con_run]. split; [auto|]. split; [auto|]. rewrite (@run_events _ _ _ _ R). auto.
    + destruct (IH _ _ _ _ _ _ R) as (m & m' & A & B & C). exists m, m'. split; [|auto]. cbn [map fst con_run]. rewrite S. rewrite A. reflexivity.
Qed.
Lemma run_inv : forall (P : con -> Prop), (forall s e s' o, P s -> step s e = Some (s', o) -> P s') -> forall h s s' tr, P s -> run s h = Some (s', tr) -> P s'.
Proof.
  intros P K. induction h as [|e h IH]; intros s s' tr I H.
  - cbn in H. injection H as <- _. auto.
  - apply run_cons in H. destruct H as (s1 & o1 & tr1 & S & R & _). eauto.
Qed.

(** Nobody ever names an owner, nothing is ever requested, no waiter hears anything. *)
Record quiet (s : con) : Prop := mk_quiet {
  q_owner : pp_owner (c_pp s) = None;
  q_wf : wf_pp (c_pp s);
  q_unbegun : forall k p, In (k, p) (pp_data (c_pp s)) -> forall b, In b (pc_data p) -> b = Unbegun;
  q_tasks : forall x d, In x (c_tasks s) -> t_dl x = Some d -> dl_blocks d = [] }.
Record deaf (s : con) : Prop := mk_deaf { f_tasks : forall x, In x (c_tasks s) -> t_choking x = true /\ t_chokes x = [] }.

Lemma in_upd : forall A (l : list A) n x y, In y (upd l n x) -> y = x \/ In y l.
Proof.
  intros A l. induction l as [|a l IH]; intros [|n] x y H; cbn in H; auto.
  - destruct H as [H|H]; auto. right. right. auto.
  - destruct H as [H|H]; [right; left; auto|]. destruct (IH _ _ _ H); auto. right. right. auto.
Qed.
Lemma add_piece_quiet : forall q i q', pp_owner q = None -> wf_pp q -> (forall k p, In (k, p) (pp_data q) -> forall b, In b (pc_data p) -> b = Unbegun) ->
  pp_add_piece q i = Val q' -> pp_owner q' = None /\ wf_pp q' /\ (forall k p, In (k, p) (pp_data q') -> forall b, In b (pc_data p) -> b = Unbegun).
Proof.
  intros q i q' O W U H. split; [|split; [eapply wf_add_piece; eauto|]].
  - unfold pp_add_piece in H. destruct (pmget i (pp_data q)); [injection H as <-; auto|]. destruct (_ <=? _); [discriminate|]. destruct (pc_new _); try discriminate. injection H as <-. auto.
  - unfold pp_add_piece in H. destruct (pmget i (pp_data q)) eqn:G; [injection H as <-; auto|]. destruct (_ <=? _); [discriminate|]. unfold pc_new in H.
    destruct (unsigned_ceil_div _ _) as [n| |]; try discriminate. cbn [rbind] in H. injection H as <-. cbn [pp_with pp_data]. intros k p I b B.
    assert (D : forall m k p, In (k, p) (pmset i (mk_pc 0 0 (repeat Unbegun n)) m) -> p = mk_pc 0 0 (repeat Unbegun n) \/ In (k, p) m).
    { clear. induction m as [|[k0 p0] m IH]; intros k p I; cbn in I.
      - destruct I as [I|[]]. injection I as <- <-. auto.
      - destruct (Nat.eqb i k0) eqn:E; cbn in I; destruct I as [I|I]; try (injection I as <- <-); cbn; auto. destruct (IH _ _ I); auto. }
    destruct (D _ _ _ I) as [->|X]; [|eapply U; eauto]. cbn in B. apply repeat_spec in B. auto.
Qed.
(** A turn of a task that has requested nothing, in a quiet state. *)
Lemma turn_quiet : forall poisoned now q d e, pp_owner q = None -> dl_blocks d = [] ->
  match dl_turn sha1 checked poisoned now q d e with
  | Died _ => True
  | Alive q' d' fin reqs => q' = q /\ dl_blocks d' = [] /\ fin = [] /\ reqs = []
  end.
Proof.
  intros poisoned now q d e O B. unfold dl_turn.
  assert (W : wants_lock q d e = None).
  { destruct e as [b| |]; cbn [wants_lock]; auto. destruct (negb _); auto. destruct (dmget _ _); auto. rewrite B. reflexivity. }
  rewrite W.
  assert (HD : exists d1, dl_handle sha1 checked q d e = Val (q, d1, []) /\ dl_blocks d1 = []).
  { destruct e as [b|h i|i]; cbn [dl_handle]; eauto. unfold dl_block. destruct (negb _); eauto. destruct (dmget _ _); eauto. rewrite B. cbn. eauto. }
  destruct HD as (d1 & -> & B1). destruct (_ =? 0).
  - destruct poisoned; auto. destruct (pp_take q now (keys (dl_pieces d1)) (dl_blocks d1) (dl_cap d1)) as [[[s2 bl] cap]| |] eqn:T; auto.
    unfold pp_take in T. rewrite O in T. destruct (take_pass is_unbegun None now (keys (dl_pieces d1)) (pp_data q)) as [r1| |] eqn:T1; try discriminate. cbn [rbind] in T.
    apply take_pass_none in T1. subst r1. cbn [fst snd length app] in T. rewrite B1, app_nil_r in T.
    destruct (_ =? _).
    + injection T as <- <- _. cbn. destruct q; auto.
    + destruct (take_pass (is_expired now) None now (keys (dl_pieces d1)) (pp_data q)) as [r2| |] eqn:T2; try discriminate. cbn [rbind] in T.
      apply take_pass_none in T2. subst r2. injection T as <- <- _. cbn. destruct q; auto.
  - rewrite B1. cbn. auto.
Qed.

Lemma in_nth : forall A (l : list A) n x, nth_error l n = Some x -> In x l.
Proof. intros. eapply nth_error_In; eauto. Qed.

(** The one lemma about steps. *)
Lemma step_quiet : forall s e s' o, quiet s -> step s e = Some (s', o) -> quiet s' /\ (forall x, In x o -> exists p m t, e = SendMsg p m /\ x = (t, ToPeer m) /\ sendable m = true).
Proof.
  intros s e s' o [O W U T] H. destruct e as [p|p|p c|p i h| |p m|t b|t|t oc now|t]; cbn [con_step] in H.
  - destruct (c_main s); try discriminate. destruct (omget p (c_map s)); injection H as <- <-; (split; [constructor; cbn; auto|intros x []]).
    intros x d I E. apply in_app_or in I. destruct I as [I|[<-|[]]]; [eapply T; eauto|]. cbn in E. injection E as <-. reflexivity.
  - destruct (c_main s); try discriminate. destruct (omget p (c_map s)); [|injection H as <- <-; split; [constructor; auto|intros x []]].
    destruct (nth_error (c_tasks s) n) as [x0|] eqn:N; [|discriminate]. injection H as <- <-. split; [constructor; cbn; auto|intros x []].
    intros x d I E. apply in_upd in I. destruct I as [->|I]; [|eapply T; eauto]. cbn in E. apply in_nth in N. eapply T; eauto.
  - destruct (c_main s); try discriminate. destruct (omget p (c_map s)); [|injection H as <- <-; split; [constructor; auto|intros x []]].
    destruct (nth_error (c_tasks s) n) as [x0|] eqn:N; [|discriminate]. injection H as <- <-. split; [constructor; cbn; auto|intros x []].
    intros x d I E. apply in_upd in I. destruct I as [->|I]; [|eapply T; eauto]. cbn in E. apply in_nth in N. eapply T; eauto.
  - destruct (c_main s); try discriminate. destruct (omget p (c_map s)); [|injection H as <- <-; split; [constructor; auto|intros x []]].
    destruct (nth_error (c_tasks s) n) as [x0|] eqn:N; [|discriminate]. destruct (t_dl x0) as [d0|] eqn:D; [|injection H as <- <-; split; [constructor; auto|intros x []]].
    destruct (_ <=? _); [discriminate|]. injection H as <- <-. split; [constructor; cbn; auto|intros x []].
    intros x d I E. apply in_upd in I. destruct I as [->|I]; [|eapply T; eauto]. cbn in E. apply in_nth in N. injection E as <-. eapply T; eauto.
  - destruct (c_main s) as [|i|]; try discriminate. destruct (c_poisoned s); [injection H as <- <-; split; [constructor; auto|intros x []]|].
    destruct (pp_add_piece (c_pp s) i) as [q| |] eqn:A; injection H as <- <-; (split; [|intros x []]); try (constructor; auto; fail).
    destruct (@add_piece_quiet _ _ _ O W U A) as (O' & W' & U'). constructor; auto.
  - destruct (c_main s); try discriminate. destruct (sendable m) eqn:SM; [|discriminate]. cbn [negb] in H. destruct (omget p (c_map s)); [|injection H as <- <-; split; [constructor; auto|intros x []]].
    destruct (nth_error (c_tasks s) n) as [x0|] eqn:N; [|discriminate]. injection H as <- <-. split; [constructor; auto|]. intros x I. destruct (t_con x0); [|destruct I]. destruct I as [<-|[]]. eauto 6.
  - destruct (nth_error (c_tasks s) t) as [x0|] eqn:N; [|discriminate]. destruct (_ && _); [|discriminate]. injection H as <- <-. split; [constructor; cbn; auto|intros x []].
    intros x d I E. apply in_upd in I. destruct I as [->|I]; [|eapply T; eauto]. cbn in E. apply in_nth in N. eapply T; eauto.
  - destruct (nth_error (c_tasks s) t) as [x0|] eqn:N; [|discriminate]. injection H as <- <-. split; [constructor; cbn; auto|intros x []].
    intros x d I E. apply in_upd in I. destruct I as [->|I]; [|eapply T; eauto]. cbn in E. apply in_nth in N. eapply T; eauto.
  - destruct (nth_error (c_tasks s) t) as [x0|] eqn:N; [|discriminate]. destruct (t_dl x0) as [d0|] eqn:D; [|discriminate]. pose proof (in_nth _ _ N) as I0. pose proof (T _ _ I0 D) as B0.
    assert (K : forall y e, Some (after_turn s t y (dl_turn sha1 checked (c_poisoned s) now (c_pp s) d0 e)) = Some (s', o) -> t_con y = t_con x0 -> quiet s' /\ o = []).
    { intros y e H2 Y. pose proof (@turn_quiet (c_poisoned s) now (c_pp s) d0 e O B0) as Q. destruct (dl_turn _ _ _ _ _ _ _) as [q' d' fin reqs|po]; cbn [after_turn] in H2.
      - destruct Q as (-> & B' & -> & ->). injection H2 as <- <-. split; [|cbn; destruct (t_con y); reflexivity]. constructor; cbn; auto.
        intros x d I E. apply in_upd in I. destruct I as [->|I]; [|eapply T; eauto]. cbn in E. injection E as <-. auto.
      - injection H2 as <- <-. split; [|auto]. constructor; cbn; auto. intros x d I E. apply in_upd in I. destruct I as [->|I]; [discriminate|eapply T; eauto]. }
    destruct oc; [destruct (t_cmds x0) as [|c cs]|destruct (t_blocks x0) as [|b bs]]; try discriminate; apply K in H; auto; destruct H as (Q & ->); split; auto; intros x [].
  - destruct (nth_error (c_tasks s) t) as [x0|] eqn:N; [|discriminate]. destruct (t_dl x0) as [d0|] eqn:D; [|discriminate]. destruct (_ || _); [|discriminate]. injection H as <- <-.
    split; [constructor; cbn; auto|intros x []]. intros x d I E. apply in_upd in I. destruct I as [->|I]; [discriminate|eapply T; eauto].
Qed.
Lemma start_quiet : forall pl s, con_new pl = Val s -> quiet s.
Proof.
  intros pl s H. unfold con_new in H. destruct (pp_new pl) as [q| |] eqn:N; try discriminate. injection H as <-.
  assert (W : wf_pp q) by (apply (@preach_wf checked); eapply pr_new; eauto).
  unfold pp_new in N. destruct (unsigned_ceil_div _ _); try discriminate. injection N as <-. constructor; cbn; auto; try (intros; contradiction).
Qed.
Lemma run_quiet : forall pl s0 h s tr, con_new pl = Val s0 -> run s0 h = Some (s, tr) -> quiet s.
Proof. intros pl s0 h s tr N R. eapply (@run_inv quiet); [|eapply start_quiet; eauto|eauto]. intros s1 e s2 o Q S. eapply step_quiet; eauto. Qed.

(** ** C87 *)
(** As the program stands no task ever asks a peer for anything, and no piece is
    ever finished: all that is put in a queue was put there by one of the send
    functions of the handle. *)
Theorem C87_nothing_requested : forall pl s0 h s tr e o x, con_new pl = Val s0 -> run s0 h = Some (s, tr) -> In (e, o) tr -> In x o ->
  (exists p m t, e = SendMsg p m /\ x = (t, ToPeer m)) /\ is_request x = false /\ is_finished x = false.
Proof.
  intros pl s0 h s tr e o x N R I X. apply in_split in I. destruct I as (a & b & ->). apply run_split in R. destruct R as (m & m' & A & S & _).
  pose proof (@run_quiet _ _ _ _ _ N A) as Q. destruct (@step_quiet _ _ _ _ Q S) as (_ & K). destruct (K x X) as (p & msg & t & -> & -> & SM).
  split; [eauto|]. destruct msg; try discriminate; auto.
Qed.
Lemma turn_fatal : forall s t x d k on_cmd now s' o, quiet s ->
  nth_error (c_tasks s) t = Some x -> t_dl x = Some d -> dl_counter d mod 5 = 0 -> in_flight (c_pp s) k ->
  (In k (keys (dl_pieces d)) /\ (forall i cs, t_cmds x <> StopPiece i :: cs) \/ exists hh cs, t_cmds x = StartPiece hh k :: cs /\ on_cmd = true) ->
  step s (Turn t on_cmd now) = Some (s', o) ->
  c_poisoned s' = true /\ exists x', nth_error (c_tasks s') t = Some x' /\ t_dl x' = None.
Proof.
  intros s t x d k oc now s' o [O W U T] NT D C F A S. pose proof (T _ _ (in_nth _ _ NT) D) as B0.
  assert (DEAD : forall y e, t_dl y = Some d -> (forall d1, dl_handle sha1 checked (c_pp s) d e = Val (c_pp s, d1, []) -> In k (keys (dl_pieces d1)) /\ dl_counter d1 = dl_counter d) ->
    Some (after_turn s t y (dl_turn sha1 checked (c_poisoned s) now (c_pp s) d e)) = Some (s', o) -> c_poisoned s' = true /\ exists x', nth_error (c_tasks s') t = Some x' /\ t_dl x' = None).
  { intros y e Y HK H2. assert (TURN : dl_turn sha1 checked (c_poisoned s) now (c_pp s) d e = Died (negb (c_poisoned s))).
    { unfold dl_turn. assert (WL : wants_lock (c_pp s) d e = None).
      { destruct e as [b| |]; cbn [wants_lock]; auto. destruct (negb _); auto. destruct (dmget _ _); auto. rewrite B0. reflexivity. }
      rewrite WL. assert (HD : exists d1, dl_handle sha1 checked (c_pp s) d e = Val (c_pp s, d1, [])).
      { destruct e as [b|hh i|i]; cbn [dl_handle]; eauto. unfold dl_block. destruct (negb _); eauto. destruct (dmget _ _); eauto. rewrite B0. cbn. eauto. }
      destruct HD as (d1 & HD). rewrite HD. destruct (HK _ HD) as (KI & KC). rewrite KC. change (ACTIVE_BLOCKS_PER_PEER / 3) with 5. rewrite C. cbn [Nat.eqb]. destruct (c_poisoned s); [reflexivity|].
      assert (PT : pp_take (c_pp s) now (keys (dl_pieces d1)) (dl_blocks d1) (dl_cap d1) = Panic).
      { apply in_flight_get in F. destruct F as (p & F). pose proof (@wf_get _ _ _ W F) as L. assert (L0 : 0 < pp_bpp (c_pp s)) by (destruct W as (W1 & W2 & _); rewrite W2; apply n_blocks_pos; auto).
        destruct (pc_data p) as [|b0 l] eqn:PD; [cbn in L; lia|]. unfold pp_take. rewrite O. erewrite take_pass_none_panic; [reflexivity|exact F|exact KI| |]; [rewrite PD; instantiate (1 := b0); instantiate (1 := 0); reflexivity|].
        assert (b0 = Unbegun). { eapply U; [eapply (mget_in Nat.eqb neqb_spec); exact F|]. rewrite PD. left. auto. } subst b0. reflexivity. }
      rewrite PT. reflexivity. }
    rewrite TURN in H2. cbn [after_turn] in H2. injection H2 as <- _. cbn [c_poisoned c_tasks]. split; [destruct (c_poisoned s); reflexivity|].
    eexists. split; [|]. - apply nth_error_upd_same. apply nth_error_Some. congruence. - reflexivity. }
  cbn [con_step] in S. rewrite NT, D in S. destruct oc.
  - destruct (t_cmds x) as [|c cs] eqn:CM; [discriminate|]. eapply DEAD in S; eauto. intros d1 HD. destruct A as [(KI & NS)|(hh & cs' & E & _)].
    + destruct c as [hh i|i]; [|exfalso; eapply NS; eauto]. cbn [cmd_event dl_handle] in HD. injection HD as <-. cbn [dl_pieces dl_counter]. split; auto. unfold dmset. rewrite keys_mset. destruct (mhas _ _ _); auto. apply in_or_app. auto.
    + injection E as -> ->. cbn [cmd_event dl_handle] in HD. injection HD as <-. cbn [dl_pieces dl_counter]. split; auto. eapply (mget_some_key Nat.eqb neqb_spec). apply (mget_mset_same Nat.eqb neqb_spec).
  - destruct (t_blocks x) as [|b bs] eqn:BL; [discriminate|]. eapply DEAD in S; eauto. intros d1 HD. destruct A as [(KI & NS)|(hh & cs' & _ & E)]; [|discriminate].
    assert (d1 = d); [|subst; auto]. cbn [dl_handle] in HD. unfold dl_block in HD. destruct (negb _); [congruence|]. destruct (dmget _ _); [|congruence]. rewrite B0 in HD. cbn in HD. congruence.
Qed.
(** A task that takes a fifth turn with an assigned piece in flight dies and
    poisons the shared set... *)
Theorem C87_turn_fatal : forall pl s0 h s tr t x d k on_cmd now s' o, con_new pl = Val s0 -> run s0 h = Some (s, tr) ->
  nth_error (c_tasks s) t = Some x -> t_dl x = Some d -> dl_counter d mod 5 = 0 -> in_flight (c_pp s) k ->
  (In k (keys (dl_pieces d)) /\ (forall i cs, t_cmds x <> StopPiece i :: cs) \/ exists hh cs, t_cmds x = StartPiece hh k :: cs /\ on_cmd = true) ->
  step s (Turn t on_cmd now) = Some (s', o) ->
  c_poisoned s' = true /\ exists x', nth_error (c_tasks s') t = Some x' /\ t_dl x' = None.
Proof. intros pl s0 h s tr t x d k oc now s' o N R NT D C F A S. eapply turn_fatal; eauto. eapply run_quiet; eauto. Qed.
(** ... for good; then the next piece the manager wants to start kills the
    manager as well, after which it makes no call any more. *)
Theorem C87_poison_spreads : forall s e s' o, step s e = Some (s', o) ->
  (c_poisoned s = true -> c_poisoned s' = true /\ (e = AddPiece -> c_main s' = MDead)) /\ (c_main s = MDead -> c_main s' = MDead).
Proof.
  intros s e s' o H. destruct e as [p|p|p c|p i h| |p m|t b|t|t oc now|t]; cbn [con_step] in H;
    try (destruct (c_main s) as [|j|] eqn:M; try discriminate; split; [intro P|intro; discriminate];
         repeat match type of H with
         | (match ?x with _ => _ end) = _ => destruct x; try discriminate
         end; injection H as <- <-; cbn; split; auto; try (intro; discriminate); fail).
  - destruct (nth_error (c_tasks s) t) as [x|]; [|discriminate]. destruct (_ && _); [|discriminate]. injection H as <- <-. cbn. split; [intro P; split; [auto|intro; discriminate]|auto].
  - destruct (nth_error (c_tasks s) t) as [x|]; [|discriminate]. injection H as <- <-. cbn. split; [intro P; split; [auto|intro; discriminate]|auto].
  - destruct (nth_error (c_tasks s) t) as [x|]; [|discriminate]. destruct (t_dl x) as [d|]; [|discriminate].
    assert (K : forall y r, after_turn s t y r = (s', o) -> (c_poisoned s = true -> c_poisoned s' = true) /\ c_main s' = c_main s).
    { intros y r E. destruct r; cbn [after_turn] in E; injection E as <- _; cbn; split; auto. intros ->. reflexivity. }
    destruct oc; [destruct (t_cmds x) as [|c cs]|destruct (t_blocks x) as [|b bs]]; try discriminate; injection H as H; apply K in H; destruct H as (A & B); rewrite B; (split; [intro P; split; [auto|intro; discriminate]|auto]).
  - destruct (nth_error (c_tasks s) t) as [x|]; [|discriminate]. destruct (t_dl x); [|discriminate]. destruct (_ || _); [|discriminate]. injection H as <- <-. cbn. split; [intro P; split; [auto|intro; discriminate]|auto].
Qed.

(** ** C88 *)
(** The torrent manager uses [connect], [recv] and [download_piece] only
    (torrent_manager.rs:120, 145, 166; [mout] in ManagerModel.v); then no peer is
    ever sent a message: no interest, no request, no keep-alive. *)
Theorem C88_silent : forall pl s0 h s tr, con_new pl = Val s0 -> run s0 h = Some (s, tr) -> (forall p m, ~ In (SendMsg p m) h) -> forall e o, In (e, o) tr -> o = [].
Proof.
  intros pl s0 h s tr N R M e o I. destruct o as [|x o]; [reflexivity|]. exfalso. destruct (@C87_nothing_requested pl s0 h s tr e (x :: o) x N R I) as ((p & m & t & -> & _) & _); [left; auto|].
  apply (M p m). rewrite <- (@run_events _ _ _ _ R). apply in_map_iff. exists (SendMsg p m, x :: o). auto.
Qed.

(** ** C58 *)
(** As the program stands nothing is requested while choked, because nothing is
    ever requested (C87). *)
Theorem C58_choke_respected : forall pl s0 h s a e o b p t x y, con_new pl = Val s0 -> run s0 h = Some (s, a ++ (e, o) :: b) -> choked_by p (map fst a) = true ->
  nth_error (c_tasks s) t = Some y -> t_peer y = p -> In (t, x) o -> is_request (t, x) = false.
Proof. intros pl s0 h s a e o b p t x y N R _ _ _ I. eapply C87_nothing_requested; eauto. apply in_or_app. right. left. reflexivity. Qed.
Lemma deaf_step : forall s e s' o, deaf s -> step s e = Some (s', o) -> deaf s'.
Proof.
  intros s e s' o [D] H. constructor. intros y I.
  assert (UP : forall t x z, nth_error (c_tasks s) t = Some x -> t_choking z = t_choking x -> t_chokes z = t_chokes x -> In y (upd (c_tasks s) t z) -> t_choking y = true /\ t_chokes y = []).
  { intros t x z N C1 C2 J. apply in_upd in J. destruct J as [->|J]; [|auto]. rewrite C1, C2. apply D. eapply in_nth; eauto. }
  destruct e as [p|p|p c|p i h| |p m|t b|t|t oc now|t]; cbn [con_step] in H.
  - destruct (c_main s); try discriminate. destruct (omget p (c_map s)); injection H as <- <-; auto. cbn in I. apply in_app_or in I. destruct I as [I|[<-|[]]]; auto.
  - destruct (c_main s); try discriminate. destruct (omget p (c_map s)); [|injection H as <- <-; auto]. destruct (nth_error (c_tasks s) n) as [x|] eqn:N; [|discriminate]. injection H as <- <-. cbn in I. eapply UP; [exact N| | |exact I]; reflexivity.
  - destruct (c_main s); try discriminate. destruct (omget p (c_map s)); [|injection H as <- <-; auto]. destruct (nth_error (c_tasks s) n) as [x|] eqn:N; [|discriminate]. injection H as <- <-. cbn in I. eapply UP; [exact N| | |exact I]; reflexivity.
  - destruct (c_main s); try discriminate. destruct (omget p (c_map s)); [|injection H as <- <-; auto]. destruct (nth_error (c_tasks s) n) as [x|] eqn:N; [|discriminate].
    destruct (t_dl x); [|injection H as <- <-; auto]. destruct (_ <=? _); [discriminate|]. injection H as <- <-. cbn in I. eapply UP; [exact N| | |exact I]; reflexivity.
  - destruct (c_main s) as [|i|]; try discriminate. destruct (c_poisoned s); [injection H as <- <-; auto|]. destruct (pp_add_piece _ _); injection H as <- <-; auto.
  - destruct (c_main s); try discriminate. destruct (negb _); [discriminate|]. destruct (omget p (c_map s)); [|injection H as <- <-; auto]. destruct (nth_error (c_tasks s) n) as [x|] eqn:N; [|discriminate]. injection H as <- <-. auto.
  - destruct (nth_error (c_tasks s) t) as [x|] eqn:N; [|discriminate]. destruct (_ && _); [|discriminate]. injection H as <- <-. cbn in I. eapply UP; [exact N| | |exact I]; reflexivity.
  - destruct (nth_error (c_tasks s) t) as [x|] eqn:N; [|discriminate]. injection H as <- <-. cbn in I. eapply UP; [exact N| | |exact I]; reflexivity.
  - destruct (nth_error (c_tasks s) t) as [x|] eqn:N; [|discriminate]. destruct (t_dl x) as [d|]; [|discriminate].
    assert (K : forall z r, after_turn s t z r = (s', o) -> t_choking z = t_choking x -> t_chokes z = t_chokes x -> t_choking y = true /\ t_chokes y = []).
    { intros z r E C1 C2. destruct r; cbn [after_turn] in E; injection E as <- _; cbn in I; (eapply UP; [exact N| | |exact I]); auto. }
    destruct oc; [destruct (t_cmds x) as [|c cs]|destruct (t_blocks x) as [|b bs]]; try discriminate; injection H as H; (eapply K; [exact H| |]); reflexivity.
  - destruct (nth_error (c_tasks s) t) as [x|] eqn:N; [|discriminate]. destruct (t_dl x) as [d|]; [|discriminate]. destruct (_ || _); [|discriminate]. injection H as <- <-. cbn in I. eapply UP; [exact N| | |exact I]; reflexivity.
Qed.
(** Whatever the peers sent, the waiter of every task has heard nothing: a
    downloader that did wait would wait for ever. *)
Theorem C58_waiter_stuck : forall s0 h s tr x, c_tasks s0 = [] -> run s0 h = Some (s, tr) -> In x (c_tasks s) -> wait_if_choking (t_choking x) (t_chokes x) = None.
Proof.
  intros s0 h s tr x E R I. assert (D : deaf s). { eapply (@run_inv deaf); [apply deaf_step| |exact R]. constructor. rewrite E. intros y []. }
  destruct D as [D]. destruct (D _ I) as (-> & ->). reflexivity.
Qed.
End Props.
Lemma last_indep : forall (c : bool) q a b, List.last (c :: q) a = List.last (c :: q) b.
Proof. intros c q. revert c. induction q as [|d q I]; intros c a b; [reflexivity|]. cbn in *. apply I. Qed.
(** What the waiter would do if it were told: it lets the caller go on exactly when
    the last thing said is not a choke, and then nothing is left to hear. *)
Theorem C58_waiter_exact : forall choking q r, wait_if_choking choking q = Some r <-> List.last q choking = false /\ r = (false, []).
Proof.
  intros choking q. revert choking. induction q as [|c q I]; intros choking r; cbn [wait_if_choking].
  - cbn. destruct choking; split; try discriminate; try (intros [? _]; discriminate).
    + intros E. injection E as <-. auto.
    + intros [_ ->]. reflexivity.
  - rewrite I. destruct q as [|c' q]; [cbn; tauto|].
    replace (List.last (c :: c' :: q) choking) with (List.last (c' :: q) choking) by reflexivity.
    rewrite (last_indep c' q c choking). tauto.
Qed.
Example C58_waiter_example : wait_if_choking true [false; true] = None /\ wait_if_choking true [true; false] = Some (false, []).
Proof. split; reflexivity. Qed.
(** With an owner set, requests go out whether the peer chokes us or not; with
    pieces of one block: *)
Definition con_owned (pl : nat) (a : addr) : res con := rmap (fun s => mk_con (pp_set_owner s a) false [] [] MIdle) (pp_new pl).
Definition ex_p : addr := mk_addr x01 x02 x03 x04 6881.
Definition ex_id : ID := repeat x00 20.
Theorem C58_owner_set_refuted : forall sha1 checked, exists pl p s0 h s a e o b t x, con_owned pl p = Val s0 /\ con_run sha1 checked s0 h = Some (s, a ++ (e, o) :: b) /\
  choked_by p (map fst a) = true /\ In (Received p true) (map fst a) /\ In (t, x) o /\ is_request (t, x) = true.
Proof.
  intros sha1 checked. exists 5, ex_p. eexists. exists [Connect ex_p; Received ex_p false; Received ex_p true; Download ex_p 0 ex_id; AddPiece; Turn 0 true 7]. eexists.
  exists [(Connect ex_p, []); (Received ex_p false, []); (Received ex_p true, []); (Download ex_p 0 ex_id, []); (AddPiece, [])], (Turn 0 true 7). eexists. exists [], 0. eexists.
  split; [vm_compute; reflexivity|]. split; [vm_compute; reflexivity|]. split; [reflexivity|]. split; [cbn; auto|]. split; [left; reflexivity|reflexivity].
Qed.
(** The first piece: the task dies, and with the second the manager. *)
Theorem C87_requested_refuted : forall sha1 checked, exists s0 h s tr, con_new 5 = Val s0 /\ con_run sha1 checked s0 h = Some (s, tr) /\
  h = [Connect ex_p; Received ex_p false; Download ex_p 0 ex_id; AddPiece; Turn 0 true 7; Connect (mk_addr x09 x02 x03 x04 1); Download (mk_addr x09 x02 x03 x04 1) 1 ex_id; AddPiece] /\
  (forall e o, In (e, o) tr -> o = []) /\ c_poisoned s = true /\ c_main s = MDead.
Proof.
  intros sha1 checked. eexists. exists [Connect ex_p; Received ex_p false; Download ex_p 0 ex_id; AddPiece; Turn 0 true 7; Connect (mk_addr x09 x02 x03 x04 1); Download (mk_addr x09 x02 x03 x04 1) 1 ex_id; AddPiece].
  do 2 eexists. split; [vm_compute; reflexivity|]. split; [vm_compute; reflexivity|]. split; [reflexivity|]. split; [|split; reflexivity].
  intros e o I. cbn in I. intuition congruence.
Qed.
(** A peer that unchoked us and whose piece is wanted: nothing is sent. *)
Theorem C88_interest_refuted : forall sha1 checked, exists s0 h s tr, con_new 5 = Val s0 /\ con_run sha1 checked s0 h = Some (s, tr) /\
  In (Connect ex_p) h /\ In (Received ex_p false) h /\ In (Download ex_p 0 ex_id) h /\ (forall p m, ~ In (SendMsg p m) h) /\ (forall e o, In (e, o) tr -> o = []).
Proof.
  intros sha1 checked. destruct (C87_requested_refuted sha1 checked) as (s0 & h & s & tr & N & R & -> & O & _). exists s0. eexists. exists s, tr. split; [exact N|]. split; [exact R|].
  split; [cbn; auto|]. split; [cbn; auto|]. split; [cbn; auto|]. split; [|exact O]. intros p m I. cbn in I. intuition discriminate.
Qed.
(** A run as in C87_turn_fatal up to the fatal turn. *)
Example C87_example : forall sha1 checked, exists s0 s tr x d, con_new 5 = Val s0 /\ con_run sha1 checked s0 [Connect ex_p; Download ex_p 3 ex_id; AddPiece] = Some (s, tr) /\
  nth_error (c_tasks s) 0 = Some x /\ t_dl x = Some d /\ dl_counter d mod 5 = 0 /\ in_flight (c_pp s) 3 /\ t_cmds x = [StartPiece ex_id 3] /\
  exists s' o, con_step sha1 checked s (Turn 0 true 7) = Some (s', o).
Proof. intros sha1 checked. do 5 eexists. split; [vm_compute; reflexivity|]. split; [vm_compute; reflexivity|]. split; [reflexivity|]. split; [reflexivity|]. split; [reflexivity|]. split; [left; reflexivity|]. split; [reflexivity|]. do 2 eexists. vm_compute. reflexivity. Qed.
(** What the send functions give does come out. *)
Example C58_example : forall sha1 checked, exists s0 s tr y, con_new 5 = Val s0 /\ con_run sha1 checked s0 [Connect ex_p; Received ex_p true; SendMsg ex_p Interested] = Some (s, tr ++ (SendMsg ex_p Interested, [(0, ToPeer Interested)]) :: []) /\
  choked_by ex_p (map fst tr) = true /\ nth_error (c_tasks s) 0 = Some y /\ t_peer y = ex_p.
Proof. intros sha1 checked. do 2 eexists. exists [(Connect ex_p, []); (Received ex_p true, [])]. eexists. split; [vm_compute; reflexivity|]. split; [vm_compute; reflexivity|]. split; [reflexivity|]. split; reflexivity. Qed.
Print Assumptions C87_nothing_requested.
Print Assumptions C87_turn_fatal.
Print Assumptions C87_poison_spreads.
Print Assumptions C87_requested_refuted.
Print Assumptions C88_silent.
Print Assumptions C88_interest_refuted.
Print Assumptions C58_choke_respected.
Print Assumptions C58_waiter_stuck.
Print Assumptions C58_owner_set_refuted.
Print Assumptions C58_waiter_exact.
