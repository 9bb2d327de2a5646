(** C90 continued: nothing but a full channel to the search, or the cycle of C89,
    keeps the DHT from taking in the next datagram. *)
From Coq Require Import List NArith ZArith Lia Bool Arith.
From Coq Require Import Init.Byte.
From Verif Require Import Base Assoc IdModel WireModel TableModel PeersModel PeersSpec BencodeModel KrpcModel DhtModel DhtSpec DhtMgrModel FetchModel TaskModel DhtSysModel DhtSysSpec DhtSysProps.
Import ListNotations.
Set Implicit Arguments.

Section holdup.
Variable sha : bytes -> bytes.
Variable usize_max : nat.
Variable cap : caps.
Variable tcp_port : N.
Notation step := (ystep sha usize_max cap tcp_port).
Notation run := (yrun sha usize_max cap tcp_port).
(** Steps of the socket task and of the DHT task; the latter takes queries and
    responses only, at the time and with the choices given. The search does
    nothing and nothing arrives. *)
Inductive of_the_rest (now : N) (pick : picker) : yev -> Prop :=
| rest_out : of_the_rest now pick YOut
| rest_send : of_the_rest now pick YSend
| rest_check : of_the_rest now pick (YCheck now now)
| rest_resp : of_the_rest now pick (YTurn now pick SResp)
| rest_query : of_the_rest now pick (YTurn now pick SQuery).
Lemma run_one : forall y e y1 o, step y e = Some (y1, o) -> run y [e] = Some (y1, [(e, o)]).
Proof. intros. cbn [yrun]. rewrite H. reflexivity. Qed.
Lemma run_cons : forall y e y1 o es y2 h, step y e = Some (y1, o) -> run y1 es = Some (y2, h) -> run y (e :: es) = Some (y2, (e, o) :: h).
Proof. intros. cbn [yrun]. rewrite H, H0. reflexivity. Qed.

(** The DHT task comes to take something in, ends, or waits for room. *)
Lemma dht_gets_on : forall now pick l y, y_sock y <> None -> (y_phase y = PStart l \/ y_phase y = PSend l) ->
  exists es y' h, run y es = Some (y', h) /\ Forall (of_the_rest now pick) es /\
    y_sock y' = y_sock y /\ y_outs y' = y_outs y /\ y_qry y' = y_qry y /\ y_rd y' = y_rd y /\
    (y_phase y' = PIdle \/ y_phase y' = PGone \/ dht_sending y' /\ c_cmd cap <= length (y_cmd y')).
Proof.
  intros now pick. induction l as [|c l IH]; intros y S P.
  - destruct P as [P|P].
    + exists [YSend]. do 2 eexists. split; [apply run_one; cbn [ystep]; rewrite P; reflexivity|]. split; [repeat constructor|]. repeat split; auto.
    + assert (H : exists y' o, step y (YCheck now now) = Some (y', o) /\ y_sock y' = y_sock y /\ y_outs y' = y_outs y /\ y_qry y' = y_qry y /\ y_rd y' = y_rd y /\ (y_phase y' = PIdle \/ y_phase y' = PGone)).
      { cbn [ystep]. rewrite P. destruct (_ && _); [destruct (spawn_fetcher _ _ _ _ _) as [[f|]| |]|]; do 2 eexists; (split; [reflexivity|]); cbn; auto 10. }
      destruct H as (y' & o & H & A & B & C & D & E). exists [YCheck now now]. do 2 eexists. split; [apply run_one; exact H|]. split; [repeat constructor|]. repeat split; auto. tauto.
  - destruct (Nat.lt_ge_cases (length (y_cmd y)) (c_cmd cap)) as [L|L].
    + assert (SA : sock_alive y = true) by (unfold sock_alive; destruct (y_sock y); congruence).
      assert (LT : (length (y_cmd y) <? c_cmd cap) = true) by (apply Nat.ltb_lt; exact L).
      assert (H : exists y1 o, step y YSend = Some (y1, o) /\ y_sock y1 = y_sock y /\ y_outs y1 = y_outs y /\ y_qry y1 = y_qry y /\ y_rd y1 = y_rd y /\ (y_phase y1 = PStart l \/ y_phase y1 = PSend l)).
      { cbn [ystep]. destruct P as [P|P]; rewrite P, SA; unfold send_cmd; rewrite LT; cbn [option_map]; do 2 eexists; (split; [reflexivity|]); cbn; auto 10. }
      destruct H as (y1 & o & H & A & B & C & D & E). destruct (IH y1) as (es & y' & h & R & F & A1 & B1 & C1 & D1 & E1); [congruence|exact E|].
      exists (YSend :: es). do 2 eexists. split; [eapply run_cons; eauto|]. split; [constructor; [constructor|exact F]|]. repeat split; try congruence; auto.
    + exists [], y, []. split; [reflexivity|]. split; [constructor|]. repeat split; auto. right. right. split; [exists c, l; tauto|exact L].
Qed.
(** No channel to the DHT task ever holds more than it can. *)
Definition in_bounds (y : sys) : Prop := length (y_qry y) <= c_qry cap /\ length (y_rd y) <= c_rd cap.
Lemma bounds_step : forall y e y' o, in_bounds y -> step y e = Some (y', o) -> in_bounds y'.
Proof.
  intros y e y' o (B1 & B2) H.
  assert (K : forall z, y_qry z = y_qry y -> y_rd z = y_rd y -> in_bounds z) by (intros z E1 E2; unfold in_bounds; rewrite E1, E2; auto).
  assert (T : forall z now pick i, y_qry (dht_turn z now pick i) = y_qry z /\ y_rd (dht_turn z now pick i) = y_rd z).
  { intros z now pick i. unfold dht_turn. destruct (gstep _ _ _ _) as [[? ?]| |]; auto. }
  assert (A : forall z r, y_qry (after_sock z r) = y_qry z /\ y_rd (after_sock z r) = y_rd z) by (intros z [[? ?]| |]; auto).
  destruct e as [from m| | | | |now pick sr| | | | | | | |]; cbn [ystep] in H.
  - inv_step H. apply K; apply A.
  - inv_step H. apply K; [rewrite (proj1 (A _ _))|rewrite (proj2 (A _ _))]; reflexivity.
  - destruct (y_sock y) as [d|]; [|discriminate]. destruct (y_outs y) as [|x os]; [discriminate|].
    unfold sock_out, hand_over in H. destruct x as [to m|tg fr tt|ih fr tt|p ih|req r]; [| | | |destruct (req =? DHT)];
    repeat match type of H with context [if ?b then _ else _] => destruct b eqn:? end; try discriminate; injection H as <- <-; try (apply K; reflexivity);
    repeat match goal with E : (_ <? _) = true |- _ => apply Nat.ltb_lt in E end; unfold in_bounds; cbn; try rewrite app_length; cbn [length]; lia.
  - inv_step H; apply K; reflexivity.
  - inv_step H; apply K; reflexivity.
  - destruct (y_phase y) eqn:P; try discriminate. destruct sr; inv_step H; unfold in_bounds; try (rewrite (proj1 (T _ _ _ _)), (proj2 (T _ _ _ _))); cbn;
    try match goal with E : y_rd y = _ |- _ => rewrite ?E end; try match goal with E : y_qry y = _ |- _ => rewrite ?E end; cbn [length] in *; split; lia.
  - inv_step H; try match goal with E : send_cmd _ _ _ _ = Some _ |- _ => apply send_frame in E; destruct E as (-> & _) end; apply K; reflexivity.
  - inv_step H; apply K; reflexivity.
  - inv_step H; apply K; reflexivity.
  - inv_step H; apply K; reflexivity.
  - inv_step H; apply K; reflexivity.
  - inv_step H; try match goal with E : send_cmd _ _ _ _ = Some _ |- _ => apply send_frame in E; destruct E as (-> & _) end; apply K; reflexivity.
  - inv_step H; apply K; reflexivity.
  - inv_step H; apply K; reflexivity.
Qed.
Lemma bounds_run : forall es y y' h, in_bounds y -> run y es = Some (y', h) -> in_bounds y'.
Proof.
  intros es y y' h B R. apply (@yrun_inv sha usize_max cap tcp_port (fun _ z => in_bounds z) y) with (es := es) (h := h); auto.
  intros. eapply bounds_step; eauto.
Qed.
(** The socket task has ended because the one it hands something to has. *)
Definition ended (y : sys) : Prop := y_sock y = None /\ (dht_alive y = false \/ y_fet y = None).
(** Something for the DHT task is handed over, the socket task ends because the
    DHT task has, or the two wait for each other. *)
Definition room_for (o : out) (y : sys) : bool :=
  match o with OResp _ _ => length (y_rd y) <? c_rd cap | _ => length (y_qry y) <? c_qry cap end.
Lemma hands_over_room : forall d o os z, y_sock z = Some d -> y_outs z = o :: os -> for_dht o = true -> room_for o z = true \/ y_phase z = PGone ->
  exists y1 w, step z YOut = Some (y1, w) /\ (ended y1 \/ y_sock y1 = Some d /\ y_outs y1 = os).
Proof.
  intros d o os z ZS ZX F R. cbn [ystep]. rewrite ZS, ZX. unfold room_for in R. destruct (dht_alive z) eqn:DA.
  - destruct R as [R|R]; [|unfold dht_alive in DA; rewrite R in DA; discriminate].
    destruct o as [to m|tg fr tt|ih fr tt|p ih|req r]; cbn in F; try discriminate F; cbn [sock_out]; try rewrite F; unfold hand_over; rewrite DA, R; cbn [option_map]; do 2 eexists; (split; [reflexivity|]); cbn; auto.
  - destruct o as [to m|tg fr tt|ih fr tt|p ih|req r]; cbn in F; try discriminate F; cbn [sock_out]; try rewrite F; unfold hand_over; rewrite DA; cbn [option_map]; do 2 eexists; (split; [reflexivity|]); left; (split; [reflexivity|]); left; exact DA.
Qed.
Lemma takes_one : forall now pick o os z, 0 < c_qry cap -> 0 < c_rd cap -> in_bounds z -> y_outs z = o :: os -> for_dht o = true -> room_for o z = false -> y_phase z = PIdle ->
  exists e z1 w, step z e = Some (z1, w) /\ of_the_rest now pick e /\ y_sock z1 = y_sock z /\ y_outs z1 = y_outs z /\ room_for o z1 = true.
Proof.
  intros now pick o os z Q1 Q2 (B1 & B2) X F R P.
  assert (T : forall y i, y_sock (dht_turn y now pick i) = y_sock y /\ y_outs (dht_turn y now pick i) = y_outs y /\ y_qry (dht_turn y now pick i) = y_qry y /\ y_rd (dht_turn y now pick i) = y_rd y).
  { intros y i. unfold dht_turn. destruct (gstep _ _ _ _) as [[? ?]| |]; auto. }
  assert (RD : length (y_rd z) <? c_rd cap = false -> exists e z1 w, step z e = Some (z1, w) /\ of_the_rest now pick e /\ y_sock z1 = y_sock z /\ y_outs z1 = y_outs z /\ length (y_rd z1) < c_rd cap).
  { intro L. apply Nat.ltb_ge in L. destruct (y_rd z) as [|r0 q0] eqn:Q; [cbn in L; lia|]. exists (YTurn now pick SResp). cbn [ystep]. rewrite P, Q. do 2 eexists. split; [reflexivity|].
    split; [constructor|]. destruct (T (with_rd z q0) (GResp r0)) as (-> & -> & _ & ->). cbn in *. repeat split; auto; lia. }
  assert (QY : length (y_qry z) <? c_qry cap = false -> exists e z1 w, step z e = Some (z1, w) /\ of_the_rest now pick e /\ y_sock z1 = y_sock z /\ y_outs z1 = y_outs z /\ length (y_qry z1) < c_qry cap).
  { intro L. apply Nat.ltb_ge in L. destruct (y_qry z) as [|r0 q0] eqn:Q; [cbn in L; lia|]. exists (YTurn now pick SQuery). cbn [ystep]. rewrite P, Q. do 2 eexists. split; [reflexivity|].
    split; [constructor|]. destruct (T (with_qry z q0) r0) as (-> & -> & -> & _). cbn in *. repeat split; auto; lia. }
  unfold room_for in *. destruct o; cbn in F; try discriminate F;
    [destruct (QY R) as (e & z1 & w & A & B & C & D & E)|destruct (QY R) as (e & z1 & w & A & B & C & D & E)|destruct (QY R) as (e & z1 & w & A & B & C & D & E)|destruct (RD R) as (e & z1 & w & A & B & C & D & E)];
    exists e, z1, w; repeat split; auto; apply Nat.ltb_lt; exact E.
Qed.
Lemma hands_over : forall now pick d o os y, 0 < c_qry cap -> 0 < c_rd cap -> in_bounds y -> y_sock y = Some d -> y_outs y = o :: os -> for_dht o = true ->
  exists es y' h, run y es = Some (y', h) /\ Forall (of_the_rest now pick) es /\
    (ended y' \/ y_sock y' = Some d /\ y_outs y' = os \/ deadlocked cap y').
Proof.
  intros now pick d o os y Q1 Q2 B S X F.
  assert (OUT : forall z, y_sock z = Some d -> y_outs z = o :: os -> room_for o z = true \/ y_phase z = PGone ->
    exists es y' h, run z es = Some (y', h) /\ Forall (of_the_rest now pick) es /\ (ended y' \/ y_sock y' = Some d /\ y_outs y' = os \/ deadlocked cap y')).
  { intros z ZS ZX R. destruct (@hands_over_room d o os z ZS ZX F R) as (y1 & w & H & K). exists [YOut]. do 2 eexists. split; [apply run_one; exact H|]. split; [repeat constructor|]. tauto. }
  assert (GO : forall z, in_bounds z -> y_sock z = Some d -> y_outs z = o :: os ->
    (y_phase z = PIdle \/ y_phase z = PGone \/ dht_sending z /\ c_cmd cap <= length (y_cmd z)) ->
    exists es y' h, run z es = Some (y', h) /\ Forall (of_the_rest now pick) es /\ (ended y' \/ y_sock y' = Some d /\ y_outs y' = os \/ deadlocked cap y')).
  { intros z ZB ZS ZX P. destruct (room_for o z) eqn:R; [apply OUT; auto|]. destruct P as [P|[P|(P & C)]].
    - destruct (@takes_one now pick o os z Q1 Q2 ZB ZX F R P) as (e & z1 & w & H & RE & S1 & O1 & R1).
      destruct (OUT z1) as (es & y' & h & R2 & F2 & K); [congruence|congruence|auto|]. exists (e :: es). do 2 eexists. split; [eapply run_cons; eauto|]. split; [constructor; auto|exact K].
    - apply OUT; auto.
    - exists [], z, []. split; [reflexivity|]. split; [constructor|]. right. right. split; [congruence|]. split; [exact P|]. split; [exact C|]. exists o, os. split; [exact ZX|].
      unfold room_for in R. destruct o as [to m|tg fr tt|ih fr tt|p ih|req r]; cbn in F; try discriminate F; apply Nat.ltb_ge in R.
      1-3: right; repeat split; auto; discriminate. left. apply Nat.eqb_eq in F. subst req. eauto. }
  destruct (y_phase y) as [l| |l|] eqn:P.
  - destruct (@dht_gets_on now pick l y) as (es & y1 & h & R & FA & A1 & A2 & A3 & A4 & K); [congruence|auto|].
    destruct (GO y1) as (es2 & y2 & h2 & R2 & FA2 & K2); [eapply bounds_run; eauto|congruence|congruence|exact K|].
    exists (es ++ es2). do 2 eexists. split; [eapply yrun_app; eauto|]. split; [apply Forall_app; auto|exact K2].
  - apply GO; auto.
  - destruct (@dht_gets_on now pick l y) as (es & y1 & h & R & FA & A1 & A2 & A3 & A4 & K); [congruence|auto|].
    destruct (GO y1) as (es2 & y2 & h2 & R2 & FA2 & K2); [eapply bounds_run; eauto|congruence|congruence|exact K|].
    exists (es ++ es2). do 2 eexists. split; [eapply yrun_app; eauto|]. split; [apply Forall_app; auto|exact K2].
  - apply GO; auto.
Qed.
Lemma goes_on : forall now pick, 0 < c_qry cap -> 0 < c_rd cap -> forall os y d, in_bounds y -> y_sock y = Some d -> y_outs y = os ->
  exists es y' h, run y es = Some (y', h) /\ Forall (of_the_rest now pick) es /\
    (ended y' \/ y_sock y' = Some d /\ y_outs y' = [] \/ deadlocked cap y' \/ waits_for_search cap y').
Proof.
  intros now pick Q1 Q2. induction os as [|o os IH]; intros y d B S X.
  - exists [], y, []. split; [reflexivity|]. split; [constructor|]. auto.
  - assert (MORE : forall es1 y1 h1, run y es1 = Some (y1, h1) -> Forall (of_the_rest now pick) es1 -> y_sock y1 = Some d -> y_outs y1 = os ->
      exists es y' h, run y es = Some (y', h) /\ Forall (of_the_rest now pick) es /\ (ended y' \/ y_sock y' = Some d /\ y_outs y' = [] \/ deadlocked cap y' \/ waits_for_search cap y')).
    { intros es1 y1 h1 R F S1 O1. destruct (IH y1 d) as (es2 & y2 & h2 & R2 & F2 & K); auto; [eapply bounds_run; eauto|].
      exists (es1 ++ es2). do 2 eexists. split; [eapply yrun_app; eauto|]. split; [apply Forall_app; auto|exact K]. }
    destruct (for_dht o) eqn:F.
    + destruct (@hands_over now pick d o os y Q1 Q2 B S X F) as (es & y1 & h & R & FA & [K|[(K1 & K2)|K]]).
      * exists es, y1, h. auto.
      * eapply MORE; eauto.
      * exists es, y1, h. auto 6.
    + destruct o as [to m|tg fr tt|ih fr tt|p ih|req r]; try discriminate F.
      * eapply (MORE [YOut]); [apply run_one; cbn [ystep]; rewrite S, X; reflexivity|repeat constructor|reflexivity|reflexivity].
      * cbn in F. destruct (y_fet y) as [f|] eqn:FE.
        -- destruct (length (y_rf y) <? c_rf cap) eqn:L.
           ++ eapply (MORE [YOut]); [apply run_one; cbn [ystep]; rewrite S, X; cbn [sock_out]; rewrite F, FE; unfold hand_over; rewrite L; reflexivity|repeat constructor|reflexivity|reflexivity].
           ++ exists [], y, []. split; [reflexivity|]. split; [constructor|]. right. right. right. unfold waits_for_search. rewrite S, FE. repeat split; try discriminate.
              { apply Nat.ltb_ge. exact L. } exists req, r, os. split; [apply Nat.eqb_neq; exact F|exact X].
        -- eexists [YOut]. do 2 eexists. split; [apply run_one; cbn [ystep]; rewrite S, X; cbn [sock_out]; rewrite F, FE; unfold hand_over; reflexivity|]. split; [repeat constructor|]. left. split; [reflexivity|]. right. exact FE.
Qed.
(** From every state the DHT comes to, its socket task gets ready for the next
    datagram or command by steps of its own and of the DHT task, unless the search
    lets its channel run full, the two wait for each other (C89), or the one it
    hands something to has ended. *)
Theorem C90_goes_on_partial : forall own secret info m t es0 y d h0 now pick, 0 < c_qry cap -> 0 < c_rd cap ->
  run (sys_start own secret info m t) es0 = Some (y, h0) -> y_sock y = Some d ->
  exists es y' h, run y es = Some (y', h) /\ Forall (of_the_rest now pick) es /\
    (ended y' \/ (forall from q, exists y'' , step y' (YIn from q) = Some (y'', [])) \/ deadlocked cap y' \/ waits_for_search cap y').
Proof.
  intros own secret info m t es0 y d h0 now pick Q1 Q2 R S.
  assert (B : in_bounds y) by (eapply bounds_run; [|exact R]; unfold in_bounds; cbn; lia).
  destruct (@goes_on now pick Q1 Q2 _ y d B S eq_refl) as (es & y' & h & R' & F & K). exists es, y', h. split; [exact R'|]. split; [exact F|].
  destruct K as [K|[(K1 & K2)|K]]; auto. right. left. intros from q. eexists. cbn [ystep]. rewrite K1, K2. reflexivity.
Qed.
End holdup.
(** A ping has arrived: it is answered, then the next datagram can be taken. *)
Example C90_goes_on_example : forall sha, 0 < c_qry CAPS /\ 0 < c_rd CAPS /\ exists y d h, 
  yrun sha 100 CAPS 1 (sys_start ex_own ex_own ex_info [] (t_default ex_own)) [YIn (ex_addr 1) (ping_query ex_node [x61])] = Some (y, h) /\ y_sock y = Some d /\ y_outs y <> [].
Proof.
  intro sha. split; [apply Nat.ltb_lt; vm_compute; reflexivity|]. split; [apply Nat.ltb_lt; vm_compute; reflexivity|]. do 3 eexists. split; [reflexivity|]. split; [reflexivity|]. discriminate.
Qed.
Print Assumptions C90_goes_on_partial.
