(** C140, C124: every history of the running torrent is one of messages, refreshes and
    undisturbed rounds of assignments, so what holds of those holds of it. *)
From Coq Require Import List NArith ZArith Lia Bool Arith Permutation.
From Coq Require Import Init.Byte.
From Verif Require Import Base Assoc BitSpec BitmapModel BitmapProofs IdModel WireModel PeersModel PeersSpec PeersProofs PeersProps ManagerModel ManagerSpec ManagerProofs SpreadProps PendingModel ConnModel ConnSpec ConnProps ClientModel ClientInvProps TorrentModel TorrentSpec TorrentProps TickProps.
Import ListNotations.

(** ** Vocabulary *)
(** What comes to the manager from outside, in the words of the histories of the
    manager alone. *)
Definition heard (e : rev) : list mevent :=
  match e with
  | RMsg p w => match con_of_message w with Val c => [EMsg p c] | _ => [] end
  | RUnreachable p => [EMsg p CUnreachable]
  | RTick => [ERefresh]
  | RTable o => [ETable o]
  | _ => []
  end.
(** The rounds of assignments left out. *)
Definition but_rounds (h : list (mevent * list mout)) : list mevent :=
  flat_map (fun x => match fst x with EAssign _ => [] | e => [e] end) h.
(** A refresh is followed by one round of assignments, with nothing but changes of the table
    in between, and there are no other rounds: [Some true] in the middle of a tick, [None]
    when it has been otherwise. *)
Definition beat (st : option bool) (e : mevent) : option bool :=
  match st, e with
  | Some false, ERefresh => Some true
  | Some true, EAssign _ => Some false
  | Some b, ETable _ => Some b
  | Some false, EMsg _ _ => Some false
  | _, _ => None
  end.
Definition in_ticks (h : list (mevent * list mout)) : option bool := fold_left beat (map fst h) (Some false).
(** The order in which a map is walked does not change in the middle of a tick. *)
Fixpoint orderly (sha1 : bytes -> ID) (checked : bool) (s : tor) (es : list rev) : Prop :=
  match es with
  | [] => True
  | e :: t => (match e with ROrder _ _ => r_phase s = Waiting | _ => True end) /\
              match tor_step sha1 checked s e with Some (s', _) => orderly sha1 checked s' t | None => True end
  end.

(** ** Proofs *)
Lemma sys_run_snoc : forall s h s1, sys_run s h s1 -> forall s2 e s3 out, sys_perm s1 s2 -> sys_step s2 e = Val (s3, out) -> sys_run s (h ++ [(e, out)]) s3.
Proof. induction 1; intros; cbn [app]; econstructor; eauto. constructor. Qed.
Lemma sys_perm_refl : forall s, sys_perm s s.
Proof. intros [m t]. exists (m_active m), t. split; [reflexivity|]. split; [reflexivity|]. destruct m; reflexivity. Qed.
Section Lift.
Variable sha1 : bytes -> ID.
Variable checked : bool.
Notation cstep := (con_step sha1 checked).
Notation step := (tor_step sha1 checked).
Notation run := (tor_run sha1 checked).

Lemma rest_step : forall e s s1 o m m1 m', step s e = Some (s1, o) -> in_tick e -> agree s -> r_mgr s = Some m -> r_mgr s1 = Some m1 ->
  rest m1 m' (r_con s1) (r_phase s1) -> rest m m' (r_con s) (r_phase s).
Proof.
  intros e s s1 o m m1 m' S T A E E' X. destruct e as [q|p w|p| | | | |e|ks ks']; try (destruct T; fail); cbn [tor_step] in S.
  - destruct (q_step (r_tab s) q) as [r| |]; try discriminate. injection S as <- <-. cbn [r_mgr r_con r_phase] in *. congruence.
  - rewrite E in S. destruct (r_phase s) as [|[|n]|] eqn:PH; try discriminate.
    + injection S as <- <-. cbn [r_mgr r_con r_phase rest] in *. injection E' as <-. subst. exists (fun _ => true), []. reflexivity.
    + destruct (select_piece m) as [[[[p i] h]|]| |] eqn:SP; [| |injection S as <- <-; discriminate..].
      * destruct (cstep (r_con s) (Download p i h)) as [[k o1]|] eqn:CS; [|discriminate]. injection S as <- <-. cbn [r_mgr r_phase r_con] in *. injection E' as <-.
        assert (Y : (exists i', c_main k = MAdd i') -> connected k p).
        { intros (i' & MM). unfold connected. rewrite (map_kept _ _ _ _ _ _ CS) by (intros; discriminate). apply omget_in. cbn [con_step] in CS. destruct (c_main (r_con s)) eqn:M0; try discriminate. destruct (omget p (c_map (r_con s))); [discriminate|]. injection CS as <- <-. congruence. }
        assert (NO : rest m m' k (Picking n) -> exists sent out, assign_loop m sent (S n) = Val (m', out)).
        { intros (sent & out & L). exists (fun j => if j =? n then false else sent j), out. cbn [assign_loop]. rewrite SP. cbn [rbind]. unfold start_piece. rewrite Nat.eqb_refl, andb_false_r. cbn [rbind fst snd app].
          rewrite (assign_ext sha1 n m _ sent), L; [reflexivity|]. intros j J. destruct (Nat.eqb_spec j n); [lia|reflexivity]. }
        cbn [rest]. destruct (c_main k) as [|j|] eqn:MK; [exact (NO X)| |exact (NO X)]. cbn [rest] in X.
        assert (CK : connected k p) by (apply Y; eauto). destruct (X CK) as (m2 & sent & out & MO & L).
        exists (fun j => if j =? n then true else sent j), (OStart p h i :: out). cbn [assign_loop]. rewrite SP. cbn [rbind]. unfold start_piece. rewrite Nat.eqb_refl, andb_true_r.
        assert (EX : existsb (addr_eqb p) (m_conn m) = true).
        { apply existsb_addr. apply (A m E). unfold connected in CK. rewrite (map_kept _ _ _ _ _ _ CS) in CK by (intros; discriminate). exact CK. }
        rewrite EX, MO. cbn [rmap rbind fst snd app]. rewrite (assign_ext sha1 n m2 _ sent), L; [reflexivity|]. intros q J. destruct (Nat.eqb_spec q n); [lia|reflexivity].
      * injection S as <- <-. cbn [r_mgr r_con r_phase rest] in *. injection E' as <-. subst. exists (fun _ => true), []. cbn [assign_loop]. rewrite SP. reflexivity.
  - rewrite E in S. destruct (r_phase s) as [| |n p i] eqn:PH; try discriminate. destruct (cstep (r_con s) AddPiece) as [[k o1]|] eqn:CS; [|discriminate].
    destruct (c_main k); [|injection S as <- <-; discriminate..]. destruct (mark_ongoing m p i) as [m2| |] eqn:MO; injection S as <- <-; try discriminate. cbn [r_mgr r_con r_phase rest] in *. injection E' as <-.
    destruct X as (sent & out & L). intros _. exists m2, sent, out. auto.
  - destruct (task_event e) eqn:TE; [|discriminate]. destruct (cstep (r_con s) e) as [[k o1]|] eqn:CS; [|discriminate]. injection S as <- <-. cbn [r_mgr r_phase r_con] in *. assert (m1 = m) as -> by congruence.
    destruct (r_phase s) as [| |n p i]; cbn [rest] in *; try exact X. intro C. apply X. unfold connected. rewrite (map_kept _ _ _ _ _ _ CS); [exact C|intros q ->; discriminate..].
Qed.

Definition sreach (hs : list ID) (hist : list mevent) (b : bool) (x : sys) : Prop := exists x0 h, sys_start hs x0 /\ sys_run x0 h x /\ but_rounds h = hist /\ in_ticks h = Some b.
Lemma sreach_step : forall hs hist b x y e z out b', sreach hs hist b x -> sys_perm x y -> sys_step y e = Val (z, out) -> beat (Some b) e = Some b' -> sreach hs (hist ++ match e with EAssign _ => [] | _ => [e] end) b' z.
Proof.
  intros hs hist b x y e z out b' (x0 & h & A & B & <- & T) P S BB. exists x0, (h ++ [(e, out)]). split; [exact A|]. split; [eapply sys_run_snoc; eauto|]. split; [|unfold in_ticks in *; rewrite map_app, fold_left_app, T; exact BB]. unfold but_rounds. rewrite flat_map_app. cbn [flat_map fst]. rewrite app_nil_r. destruct e; reflexivity.
Qed.
Definition covered (hs : list ID) (hist : list mevent) (s : tor) : Prop := forall m, r_mgr s = Some m ->
  match r_phase s with
  | Waiting => exists x, sreach hs hist false x /\ sys_perm x (m, r_tab s)
  | ph => exists m1 x, sreach hs hist true x /\ sys_perm x (m1, r_tab s) /\ forall m', rest m m' (r_con s) ph -> exists sent out, m_assign m1 sent = Val (m', out)
  end.
Lemma take_covered : forall hs hist s s0 m p c s' o, take sha1 checked s0 m p c = Some (s', o) -> r_tab s0 = r_tab s -> r_mgr s = Some m -> r_phase s = Waiting -> covered hs hist s -> covered hs (hist ++ [EMsg p c]) s'.
Proof.
  intros hs hist s s0 m p c s' o H ET E PH C. unfold take in H. destruct (received sha1 checked (r_con s0) p c) as [k|]; [|discriminate]. specialize (C m E). rewrite PH in C. destruct C as (x & SR & SP).
  destruct (handle_message m p c) as [m'| |] eqn:HM; injection H as <- <-; intros m2 X; cbn [r_mgr r_phase r_tab tor_dead] in *; try discriminate. injection X as <-. exists (m', r_tab s0). split; [|apply sys_perm_refl].
  rewrite ET. refine (sreach_step _ _ _ _ _ (EMsg p c) (m', r_tab s) [] _ SR SP _ eq_refl). cbn [sys_step fst snd]. rewrite HM. reflexivity.
Qed.
Lemma tick_covered : forall hs hist s e s' o, step s e = Some (s', o) -> e = RPick \/ e = RAdd \/ (exists x, e = RTask x) -> agree s -> covered hs hist s -> covered hs hist s'.
Proof.
  intros hs hist s e s' o S Q A C m1 E1. assert (T : in_tick e) by (destruct Q as [->|[->|(x & ->)]]; exact I).
  assert (E : exists m, r_mgr s = Some m).
  { destruct Q as [->|[->|(x & ->)]]; cbn [tor_step] in S; destruct (r_mgr s) as [m|]; try discriminate; eauto. destruct (task_event x); [|discriminate]. destruct (cstep (r_con s) x) as [[k o1]|]; [|discriminate]. injection S as <- <-. discriminate. }
  destruct E as (m & E). assert (TB : r_tab s' = r_tab s).
  { destruct Q as [->|[->|(x & ->)]]; cbn [tor_step] in S; rewrite ?E in S.
    - destruct (r_phase s) as [|[|n]|]; try discriminate; [injection S as <- <-; reflexivity|]. destruct (select_piece m) as [[[[p i] h]|]| |]; try (injection S as <- <-; reflexivity). destruct (cstep (r_con s) (Download p i h)) as [[k o1]|]; [|discriminate]. injection S as <- <-. reflexivity.
    - destruct (r_phase s); try discriminate. destruct (cstep (r_con s) AddPiece) as [[k o1]|]; [|discriminate]. destruct (c_main k); try (injection S as <- <-; reflexivity). destruct (mark_ongoing m p i); injection S as <- <-; reflexivity.
    - destruct (task_event x); [|discriminate]. destruct (cstep (r_con s) x) as [[k o1]|]; [|discriminate]. injection S as <- <-. reflexivity. }
  specialize (C m E). rewrite TB. destruct (r_phase s) eqn:PH.
  - destruct Q as [->|[->|(x & ->)]]; cbn [tor_step] in S; rewrite ?E, ?PH in S; try discriminate. destruct (task_event x); [|discriminate]. destruct (cstep (r_con s) x) as [[k o1]|]; [|discriminate]. injection S as <- <-. cbn [r_mgr r_phase] in *. assert (m1 = m) as -> by congruence. exact C.
  - destruct C as (m0 & x & SR & SP & C). assert (C' : forall m', rest m1 m' (r_con s') (r_phase s') -> exists sent out, m_assign m0 sent = Val (m', out)).
    { intros m' X. apply C. rewrite <- PH. exact (rest_step _ _ _ _ _ _ _ S T A E E1 X). }
    destruct (r_phase s') eqn:PH'; [|exists m0, x; auto..]. destruct (C' m1 eq_refl) as (sent & out & MA). exists (m1, r_tab s). split; [|apply sys_perm_refl]. rewrite <- (app_nil_r hist).
    refine (sreach_step _ _ _ _ _ (EAssign sent) (m1, r_tab s) out _ SR SP _ eq_refl). cbn [sys_step fst snd]. rewrite MA. reflexivity.
  - destruct C as (m0 & x & SR & SP & C). assert (C' : forall m', rest m1 m' (r_con s') (r_phase s') -> exists sent out, m_assign m0 sent = Val (m', out)).
    { intros m' X. apply C. rewrite <- PH. exact (rest_step _ _ _ _ _ _ _ S T A E E1 X). }
    destruct (r_phase s') eqn:PH'; [|exists m0, x; auto..]. destruct (C' m1 eq_refl) as (sent & out & MA). exists (m1, r_tab s). split; [|apply sys_perm_refl]. rewrite <- (app_nil_r hist).
    refine (sreach_step _ _ _ _ _ (EAssign sent) (m1, r_tab s) out _ SR SP _ eq_refl). cbn [sys_step fst snd]. rewrite MA. reflexivity.
Qed.
Lemma step_covered : forall hs hist s e s' o, step s e = Some (s', o) -> (match e with ROrder _ _ => r_phase s = Waiting | _ => True end) -> agree s -> covered hs hist s -> covered hs (hist ++ heard e) s'.
Proof.
  intros hs hist s e s' o S OR A C. destruct e as [q|p w|p| | | | |e|ks ks']; cbn [heard].
  - cbn [tor_step] in S. destruct (q_step (r_tab s) q) as [r| |] eqn:QS; try discriminate. injection S as <- <-. intros m E. cbn [r_mgr r_phase r_tab r_con] in *. specialize (C m E).
    assert (G : forall b m0 x, sreach hs hist b x -> sys_perm x (m0, r_tab s) -> sreach hs (hist ++ [ETable q]) b (m0, fst r)).
    { intros b m0 x SR SP. refine (sreach_step _ _ _ _ _ (ETable q) (m0, fst r) [] _ SR SP _ _); [|destruct b; reflexivity]. cbn [sys_step fst snd]. rewrite QS. reflexivity. }
    destruct (r_phase s).
    + destruct C as (x & SR & SP). eexists. split; [exact (G _ _ _ SR SP)|apply sys_perm_refl].
    + destruct C as (m0 & x & SR & SP & C). exists m0. eexists. split; [exact (G _ _ _ SR SP)|]. split; [apply sys_perm_refl|exact C].
    + destruct C as (m0 & x & SR & SP & C). exists m0. eexists. split; [exact (G _ _ _ SR SP)|]. split; [apply sys_perm_refl|exact C].
  - cbn [tor_step] in S. destruct (r_mgr s) as [m|] eqn:E; [|discriminate]. destruct (r_phase s) eqn:PH; try discriminate. destruct (con_of_message w) as [c| |]; try discriminate. eapply take_covered; eauto.
  - cbn [tor_step] in S. destruct (r_mgr s) as [m|] eqn:E; [|discriminate]. destruct (r_phase s) eqn:PH; try discriminate. eapply take_covered; eauto.
  - cbn [tor_step] in S. destruct (r_mgr s) as [m|] eqn:E; [|discriminate]. destruct (r_phase s) eqn:PH; try discriminate. destruct (r_fin s) as [|[[p i] d] f]; [discriminate|]. unfold take in S. cbn [handle_message] in S. destruct (received _ _ _ _ _); [|discriminate]. injection S as <- <-. intros m2 X. discriminate.
  - cbn [tor_step] in S. destruct (r_mgr s) as [m|] eqn:E; [|discriminate]. destruct (r_phase s) eqn:PH; try discriminate. specialize (C m E). rewrite PH in C. destruct C as (x & SR & SP).
    destruct (m_refresh m (r_tab s)) as [[[m1 t1] os]| |] eqn:R; [|injection S as <- <-; intros ? X; discriminate..]. destruct (connects sha1 checked (r_con s) os) as [k|]; [|discriminate].
    destruct (MAX_ACTIVE_PIECES <? N.to_nat (bm_weight (m_pieces m1))) eqn:W; injection S as <- <-; intros m2 X; cbn [r_mgr r_phase r_tab tor_dead] in *; try discriminate. injection X as <-. exists m1, (m1, t1). split; [|split; [apply sys_perm_refl|]].
    + refine (sreach_step _ _ _ _ _ ERefresh (m1, t1) os _ SR SP _ eq_refl). cbn [sys_step fst snd]. rewrite R. reflexivity.
    + intros m' (sent & out & L). exists sent, out. unfold m_assign. rewrite W. exact L.
  - rewrite app_nil_r. eapply tick_covered; eauto.
  - rewrite app_nil_r. eapply tick_covered; eauto.
  - rewrite app_nil_r. eapply tick_covered; eauto.
  - rewrite app_nil_r. cbn [tor_step] in S. injection S as <- <-. intros m2 X. cbn [r_mgr r_phase r_tab] in *. rewrite OR. destruct (r_mgr s) as [m|] eqn:E; [|discriminate]. cbn [option_map] in X. injection X as <-. specialize (C m E). rewrite OR in C.
    destruct C as (x & SR & a & t & P1 & P2 & Q). injection Q as -> Q. subst t. exists x. split; [exact SR|]. exists (reorder ks a), (reorder ks' (r_tab s)). split; [eapply Permutation_trans; [exact P1|apply reorder_perm]|]. split; [eapply Permutation_trans; [exact P2|apply reorder_perm]|]. reflexivity.
Qed.
Lemma run_covered : forall es hs hist s s' tr, run s es = Some (s', tr) -> orderly sha1 checked s es -> agree s -> covered hs hist s -> covered hs (hist ++ flat_map heard es) s'.
Proof.
  induction es as [|e es IH]; intros hs hist s s' tr H OR A C; cbn [tor_run] in H; [injection H as <- <-; cbn [flat_map]; rewrite app_nil_r; exact C|].
  cbn [orderly] in OR. destruct OR as (O1 & OR). destruct (step s e) as [[s1 o]|] eqn:S; [|discriminate]. destruct (run s1 es) as [[s2 t2]|] eqn:R; [|discriminate]. cbn [option_map fst snd] in H. injection H as <- <-.
  cbn [flat_map]. rewrite app_assoc. eapply IH; [exact R|exact OR|eapply step_agree; eauto|eapply step_covered; eauto].
Qed.

(** ** Theorems *)
(** Whenever the manager waits for messages, its state and the table are, up to the order of
    the maps, those after a history of the manager alone that has the same messages,
    table changes and ticks in the same order, every tick a refresh and one round. *)
Theorem C140_history : forall hs pl s0 es s tr m, tor_new hs pl = Val s0 -> run s0 es = Some (s, tr) -> orderly sha1 checked s0 es -> r_mgr s = Some m -> r_phase s = Waiting ->
  exists x0 h x, sys_start hs x0 /\ sys_run x0 h x /\ but_rounds h = flat_map heard es /\ in_ticks h = Some false /\ sys_perm x (m, r_tab s).
Proof.
  intros hs pl s0 es s tr m N R OR E PH. assert (C0 : covered hs [] s0 /\ agree s0).
  { unfold tor_new in N. destruct (m_init hs) as [mi| |] eqn:MI; try discriminate. cbn [rbind] in N. unfold con_new in N. destruct (pp_new pl); try discriminate. cbn [rmap] in N. injection N as <-. split.
    - intros m0 X. cbn [r_mgr r_phase r_tab] in *. injection X as <-. exists (mi, []). split; [|apply sys_perm_refl]. exists (mi, []), []. split; [exists mi; auto|]. split; [constructor|split; reflexivity].
    - intros m0 X p. injection X as <-. unfold m_init in MI. destruct (bm_new _); try discriminate. cbn [rbind] in MI. injection MI as <-. reflexivity. }
  destruct C0 as (C0 & A0). pose proof (run_covered _ _ _ _ _ _ R OR A0 C0 m E) as C. rewrite PH in C. destruct C as (x & (x0 & h & A & B & H & T) & SP). exists x0, h, x. auto.
Qed.
(** In particular it is a state the manager alone can come to. *)
Theorem C140_reach : forall hs pl s0 es s tr m, tor_new hs pl = Val s0 -> run s0 es = Some (s, tr) -> orderly sha1 checked s0 es -> r_mgr s = Some m -> r_phase s = Waiting ->
  sys_reach hs (m, r_tab s).
Proof.
  intros hs pl s0 es s tr m N R OR E PH. destruct (C140_history _ _ _ _ _ _ _ N R OR E PH) as (x0 & h & [m1 t1] & A & B & _ & _ & (a & t & P1 & P2 & Q)). injection Q as -> ->. cbn [fst snd] in *.
  eapply reach_perm; [exists x0, h; split; [exact A|exact B]|exact P1|exact P2].
Qed.
(** For example: whenever the manager waits, no peer works on more than four pieces. *)
Theorem C124_running : forall hs pl s0 es s tr m p inf, tor_new hs pl = Val s0 -> run s0 es = Some (s, tr) -> orderly sha1 checked s0 es -> r_mgr s = Some m -> r_phase s = Waiting ->
  In (p, inf) (m_active m) -> count_true (bits (pi_working inf)) <= 4.
Proof.
  intros hs pl s0 es s tr m p inf N R OR E PH IN. apply (@C124_at_most_four hs (m, r_tab s) p); [eapply C140_reach; eauto|]. exists inf. auto.
Qed.
End Lift.

(** A peer has joined; a tick hands out pieces while a downloader takes a turn, afterwards the
    map is walked in another order. *)
Definition ex_tick : list rev := [RTick; RPick; RAdd; RPick; RAdd; RPick; RAdd; RPick; RAdd; RPick; RAdd; RPick; RAdd; RPick; RAdd; RPick; RAdd; RTask (Turn 0 true 2); RTable (QExtend []); RPick; RPick; ROrder [0] []].
Example C140_history_example : forall sha1 checked, exists s0 s tr m, tor_new [ex_id] 5 = Val s0 /\ tor_run sha1 checked s0 (ex_joined ++ ex_tick) = Some (s, tr) /\
  orderly sha1 checked s0 (ex_joined ++ ex_tick) /\ r_mgr s = Some m /\ r_phase s = Waiting /\ bm_weight (m_pieces m) = 1%N.
Proof.
  intros sha1 checked. do 4 eexists. split; [vm_compute; reflexivity|]. split; [vm_compute; reflexivity|]. split; [vm_compute; repeat split|]. split; [reflexivity|]. split; reflexivity.
Qed.
Example C124_running_example : forall sha1 checked, exists s0 s tr m p inf, tor_new [ex_id] 5 = Val s0 /\ tor_run sha1 checked s0 (ex_joined ++ ex_tick) = Some (s, tr) /\
  orderly sha1 checked s0 (ex_joined ++ ex_tick) /\ r_mgr s = Some m /\ r_phase s = Waiting /\ In (p, inf) (m_active m) /\ count_true (bits (pi_working inf)) = 1.
Proof.
  intros sha1 checked. do 6 eexists. split; [vm_compute; reflexivity|]. split; [vm_compute; reflexivity|]. split; [vm_compute; repeat split|]. split; [reflexivity|]. split; [reflexivity|]. split; [left; reflexivity|reflexivity].
Qed.
Print Assumptions C140_history.
Print Assumptions C140_reach.
Print Assumptions C124_running.
