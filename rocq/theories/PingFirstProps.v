(** C131: what is asked first. *)
From Coq Require Import List NArith ZArith Lia Bool Arith.
From Coq Require Import Init.Byte.
From Verif Require Import Base Assoc IdModel WireModel TableModel PeersModel PeersSpec PeersProofs TableSpec BencodeModel KrpcModel DhtModel DhtMgrModel FetchModel TaskModel DhtProps DhtSysModel DhtSysSpec.
Import ListNotations.
Set Implicit Arguments.

(** The queries among the datagrams of a history, in the order they were sent. *)
Definition is_query (m : kmsg) : bool := match m with MQuery _ _ _ _ => true | _ => false end.
Definition queries (h : list (yev * list (addr * kmsg))) : list (addr * kmsg) := filter (fun x => is_query (snd x)) (flat_map snd h).
(** Nothing is waiting to be sent and the start is over. *)
Definition settled (y : sys) : Prop :=
  y_sock y <> None /\ y_outs y = [] /\ y_cmd y = [] /\ match y_phase y with PStart _ => False | _ => True end.

(** ** proofs *)
Definition erase (x : addr * kmsg) : addr * kmsg := match x with (a, MQuery _ y q g) => (a, MQuery [] y q g) | _ => x end.
Definition qs (l : list (addr * kmsg)) : list (addr * kmsg) := map erase (filter (fun x => is_query (snd x)) l).
Definition out_dg (o : out) : list (addr * kmsg) := match o with OSend a m => [(a, m)] | _ => [] end.
Section first.
Variable sha : bytes -> bytes.
Variable usize_max : nat.
Variable cap : caps.
Variable tcp_port : N.
Variable own : ID.
Notation ystep := (ystep sha usize_max cap tcp_port).
Notation yrun := (yrun sha usize_max cap tcp_port).
Definition cmd_q (c : to_con) : list (addr * kmsg) := match c with CQuery a q => [(a, query_message own [] q)] | CReply _ _ _ => [] end.
Definition stream (y : sys) : list (addr * kmsg) := qs (flat_map out_dg (y_outs y)) ++ flat_map (fun c => cmd_q (snd c)) (y_cmd y).
Lemma erase_query : forall a t q, erase (a, query_message own t q) = (a, query_message own [] q).
Proof. intros a t q. destruct q; reflexivity. Qed.
Lemma erase_inv : forall a m q, erase (a, m) = (a, query_message own [] q) -> exists t, m = query_message own t q.
Proof. intros a m q H. destruct m as [t y n g|t y r|t y e]; cbn in H; destruct q; try discriminate H; injection H; intros; subst; exists t; reflexivity. Qed.
Lemma qs_app : forall a b, qs (a ++ b) = qs a ++ qs b.
Proof. intros. unfold qs. rewrite filter_app, map_app. reflexivity. Qed.
Lemma stay : forall d, d_own d = own -> forall ev d' os, DhtModel.dstep sha all_there d ev = Val (d', os) -> d_own d' = own.
Proof.
  intros d O ev d' os H. destruct ev as [req a q t|a t r|from [t y q a|t y r|t y er]].
  - rewrite dstep_query in H. injection H as <- _. exact O.
  - cbn in H. unfold send_reply in H. injection H as <- _. exact O.
  - cbn [dstep] in H. destruct a; cbn [handle_query] in H; unfold to_listener, send_reply in H; cbn [e_listener all_there] in H; try (injection H as <- _; exact O).
    destruct (token_is_valid _ _ _ _); [|injection H as <- _; exact O]. cbn in H. injection H as <- _. exact O.
  - rewrite dstep_resp in H. destruct (mget _ _ _) as [[k rq]|]; [|injection H as <- _; exact O]. destruct (kind_eqb _ _); [|injection H as <- _; exact O]. cbn in H. injection H as <- _. exact O.
  - cbn in H. injection H as <- _. exact O.
Qed.
(** Receiving causes no query of the socket task's own. *)
Lemma in_quiet : forall d from m d' os, DhtModel.dstep sha all_there d (EIn from m) = Val (d', os) -> qs (flat_map out_dg os) = [].
Proof.
  intros d from m d' os H. destruct m as [t y q a|t y r|t y er].
  - cbn [dstep] in H. destruct a; cbn [handle_query] in H; unfold to_listener, send_reply in H; cbn [e_listener all_there] in H; try (injection H as _ <-; reflexivity).
    destruct (token_is_valid _ _ _ _); [|injection H as _ <-; reflexivity]. cbn in H. injection H as _ <-. reflexivity.
  - rewrite dstep_resp in H. destruct (mget _ _ _) as [[k rq]|]; [|injection H as _ <-; reflexivity]. destruct (kind_eqb _ _); [|injection H as _ <-; reflexivity]. cbn in H. injection H as _ <-. reflexivity.
  - cbn in H. injection H as _ <-. reflexivity.
Qed.
Definition begun (p : phase) : bool := match p with PStart _ => false | _ => true end.
Definition Inv (p0 : list (addr * kmsg)) (A : list (addr * kmsg)) (y : sys) : Prop :=
  match y_sock y with
  | None => exists r1 r2, A ++ r1 = p0 ++ r2
  | Some d => d_own d = own /\
    match y_phase y with
    | PStart l => y_fet y = None /\ A ++ stream y ++ flat_map cmd_q l = p0
    | _ => exists r, A ++ stream y = p0 ++ r
    end
  end.
Section p0.
Variable p0 : list (addr * kmsg).
Lemma drop : forall A y y', Inv p0 A y -> y_sock y' = None -> Inv p0 A y'.
Proof.
  intros A y y' V S. unfold Inv in *. rewrite S. destruct (y_sock y); [|exact V]. destruct V as (_ & V).
  destruct (y_phase y); try (destruct V as (r & E); exists (stream y), r; exact E). destruct V as (_ & E). exists (stream y ++ flat_map cmd_q l), []. rewrite app_nil_r. exact E.
Qed.
(** The socket task is as it was, up to the stream. *)
Lemma keep : forall A B y y' d d', Inv p0 A y -> y_sock y = Some d -> y_sock y' = Some d' -> d_own d' = own -> B ++ stream y' = A ++ stream y ->
  (y_phase y' = y_phase y /\ y_fet y' = y_fet y) \/ (match y_phase y with PStart (_ :: _) => False | _ => True end /\ begun (y_phase y') = true) -> Inv p0 B y'.
Proof.
  intros A B y y' d d' V S S' O E P. unfold Inv in *. rewrite S', S in *. split; [exact O|]. destruct V as (_ & V). destruct P as [(P1 & P2)|(P1 & P2)].
  - rewrite P1, P2. destruct (y_phase y); rewrite ?E; try exact V. destruct V as (V1 & V2). split; [exact V1|]. rewrite app_assoc, E, <- app_assoc. exact V2.
  - assert (X : exists r, A ++ stream y = p0 ++ r).
    { destruct (y_phase y) as [l| |l|]; auto. destruct l; [|destruct P1]. destruct V as (_ & V). exists []. cbn in V. rewrite !app_nil_r in *. exact V. }
    rewrite E. destruct (y_phase y'); auto. discriminate.
Qed.
Lemma more : forall A y c d p x, Inv p0 A y -> y_sock y = Some d -> (forall l, y_phase y = PStart l -> exists l', p = PStart l' /\ l = snd c :: l') -> (begun (y_phase y) = true -> begun p = true) ->
  x = mk_sys (y_sock y) (y_outs y) (y_cmd y ++ [c]) (y_qry y) (y_rd y) (y_rf y) (y_port y) (y_dht y) p (y_fet y) (y_fout x) (y_peers y) (y_stored y) -> Inv p0 A x.
Proof.
  intros A y c d p x V S P1 P2 E. assert (ST : stream x = stream y ++ cmd_q (snd c)). { rewrite E. unfold stream. cbn. rewrite flat_map_app. cbn. rewrite app_nil_r, app_assoc. reflexivity. }
  assert (E1 : y_sock x = y_sock y) by (rewrite E; reflexivity). assert (E2 : y_phase x = p) by (rewrite E; reflexivity). assert (E3 : y_fet x = y_fet y) by (rewrite E; reflexivity). unfold Inv in *. rewrite E1, E2, E3, ST, S in *. destruct V as (O & V). split; [exact O|].
  destruct (y_phase y) as [l| |l|].
  - destruct (P1 l eq_refl) as (l' & -> & ->). destruct V as (V1 & V2). split; [exact V1|]. rewrite <- V2. cbn. rewrite <- !app_assoc. reflexivity.
  - specialize (P2 eq_refl). destruct V as (r & V). rewrite app_assoc, V. destruct p; try discriminate; eexists; rewrite <- app_assoc; reflexivity.
  - specialize (P2 eq_refl). destruct V as (r & V). rewrite app_assoc, V. destruct p; try discriminate; eexists; rewrite <- app_assoc; reflexivity.
  - specialize (P2 eq_refl). destruct V as (r & V). rewrite app_assoc, V. destruct p; try discriminate; eexists; rewrite <- app_assoc; reflexivity.
Qed.
Lemma turn_same : forall z now pick i, let y := dht_turn z now pick i in y_sock y = y_sock z /\ y_outs y = y_outs z /\ y_cmd y = y_cmd z /\ begun (y_phase y) = true.
Proof. intros z now pick i. unfold dht_turn. destruct (gstep _ _ _ _) as [[s os]| |]; cbn; auto. Qed.
Lemma step_Inv : forall A y e y' o, Inv p0 A y -> ystep y e = Some (y', o) -> Inv p0 (A ++ qs o) y'.
Proof.
  intros A y e y' o V H.
  (* nothing sent *)
  assert (NIL : Inv p0 A y' -> o = [] -> Inv p0 (A ++ qs o) y') by (intros X ->; cbn; rewrite app_nil_r; exact X).
  destruct (y_sock y) as [d|] eqn:SK.
  2:{ (* the socket task has ended *)
    assert (X : y_sock y' = None /\ o = []).
    { assert (TS : forall z now pick i, y_sock (dht_turn z now pick i) = y_sock z) by (intros; apply turn_same).
      destruct e as [from m|t| | | |now pick s| |n2 n3| | | | |a|op]; cbn [DhtSysModel.ystep] in H; rewrite ?SK in H; try discriminate H; unfold sock_alive, send_cmd in H; rewrite ?SK in H;
      repeat match type of H with
      | Some _ = Some _ => injection H as <- <-; rewrite ?TS; split; [exact SK|reflexivity]
      | None = Some _ => discriminate H
      | option_map _ (if ?b then _ else _) = _ => destruct b; cbn [option_map] in H
      | match ?x with _ => _ end = Some _ => destruct x
      end. }
    destruct X as (X & ->). apply NIL; [|reflexivity]. eapply drop; eauto. }
  assert (OW : d_own d = own) by (unfold Inv in V; rewrite SK in V; apply V).
  assert (KP : forall y1, y_sock y1 = Some d -> y_outs y1 = y_outs y -> y_cmd y1 = y_cmd y -> (y_phase y1 = y_phase y /\ y_fet y1 = y_fet y) \/ (match y_phase y with PStart (_ :: _) => False | _ => True end /\ begun (y_phase y1) = true) -> Inv p0 A y1).
  { intros y1 S1 S2 S3 P. eapply keep; [exact V|exact SK|exact S1|exact OW| |exact P]. unfold stream. rewrite S2, S3. reflexivity. }
  assert (BG : forall f, y_fet y = Some f -> begun (y_phase y) = true) by (intros f F; unfold Inv in V; rewrite SK in V; destruct V as (_ & V); destruct (y_phase y); try reflexivity; destruct V as (V & _); congruence).
  assert (FE : forall f, y_fet y = Some f -> forall y1, y_sock y1 = Some d -> y_outs y1 = y_outs y -> y_cmd y1 = y_cmd y -> y_phase y1 = y_phase y -> Inv p0 A y1).
  { intros f F y1 S1 S2 S3 S4. pose proof (BG f F) as B. apply KP; auto. right. rewrite S4. split; [|exact B]. destruct (y_phase y); try exact Logic.I. discriminate. }
  destruct e as [from m|t| | | |now pick s| |n2 n3| | | | |a|op]; cbn [DhtSysModel.ystep] in H; rewrite ?SK in H.
  - destruct (y_outs y) eqn:OU; [|discriminate]. destruct (DhtModel.dstep sha all_there d (EIn from m)) as [[d' os]| |] eqn:DS; cbn [after_sock] in H; injection H as <- <-; (apply NIL; [|reflexivity]); [|eapply drop; eauto; reflexivity..].
    eapply keep; [exact V|exact SK|reflexivity|eapply stay; eauto| |left; split; reflexivity]. unfold stream. cbn [with_sock y_outs y_cmd]. rewrite (@in_quiet _ _ _ _ _ DS), OU. reflexivity.
  - destruct (y_outs y) eqn:OU; [|discriminate]. destruct (y_cmd y) as [|[req c] q] eqn:CM; [discriminate|].
    destruct (DhtModel.dstep _ _ _ _) as [[d' os]| |] eqn:DS; cbn [after_sock] in H; injection H as <- <-; (apply NIL; [|reflexivity]); [|eapply drop; eauto; reflexivity..].
    eapply keep; [exact V|exact SK|reflexivity|eapply stay; eauto| |left; split; reflexivity]. unfold stream. cbn. rewrite OU, CM. cbn. destruct c as [to qu|to t' r].
    + rewrite dstep_query in DS. injection DS as _ <-. cbn. rewrite OW. destruct qu; reflexivity.
    + cbn in DS. unfold send_reply in DS. injection DS as _ <-. destruct r; reflexivity.
  - destruct (y_outs y) as [|x os] eqn:OU; [discriminate|].
    assert (ONE : forall y1, y_sock y1 = Some d -> y_outs y1 = os -> y_cmd y1 = y_cmd y -> y_phase y1 = y_phase y -> y_fet y1 = y_fet y -> Inv p0 (A ++ qs (out_dg x)) y1).
    { intros y1 S1 S2 S3 S4 S5. eapply keep; [exact V|exact SK|exact S1|exact OW| |left; auto]. unfold stream. rewrite S2, S3, OU. cbn [flat_map]. rewrite qs_app, <- !app_assoc. reflexivity. }
    destruct x as [to m|tg fr t|ih fr t|p ih|req r]; cbn [sock_out] in H; unfold hand_over in H.
    + injection H as <- <-. apply ONE; reflexivity.
    + destruct (dht_alive y); [|injection H as <- <-; apply NIL; [eapply drop; eauto; reflexivity|reflexivity]]. destruct (_ <? _); [|discriminate]. injection H as <- <-. apply ONE; reflexivity.
    + destruct (dht_alive y); [|injection H as <- <-; apply NIL; [eapply drop; eauto; reflexivity|reflexivity]]. destruct (_ <? _); [|discriminate]. injection H as <- <-. apply ONE; reflexivity.
    + destruct (dht_alive y); [|injection H as <- <-; apply NIL; [eapply drop; eauto; reflexivity|reflexivity]]. destruct (_ <? _); [|discriminate]. injection H as <- <-. apply ONE; reflexivity.
    + destruct (if req =? DHT then _ else _) as [z|] eqn:HO; [|discriminate]. injection H as <- <-. destruct (req =? DHT).
      * destruct (dht_alive y); [|injection HO as <-; apply NIL; [eapply drop; eauto; reflexivity|reflexivity]]. destruct (_ <? _); [|discriminate]. injection HO as <-. apply ONE; reflexivity.
      * destruct (match y_fet y with Some _ => true | None => false end); [|injection HO as <-; apply NIL; [eapply drop; eauto; reflexivity|reflexivity]]. destruct (_ <? _); [|discriminate]. injection HO as <-. apply ONE; reflexivity.
  - destruct (y_outs y); [|discriminate]. injection H as <- <-. apply NIL; [eapply drop; eauto; reflexivity|reflexivity].
  - destruct (y_outs y); [|discriminate]. destruct (y_cmd y); [|discriminate]. destruct (y_fet y); [discriminate|]. destruct (dht_alive y); [discriminate|]. injection H as <- <-. apply NIL; [eapply drop; eauto; reflexivity|reflexivity].
  - destruct (y_phase y) eqn:PH; try discriminate.
    assert (TN : forall z i, y_sock z = Some d -> y_outs z = y_outs y -> y_cmd z = y_cmd y -> Inv p0 A (dht_turn z now pick i)).
    { intros z i S1 S2 S3. destruct (turn_same z now pick i) as (T1 & T2 & T3 & T4). apply KP; try congruence. right. split; [exact Logic.I|exact T4]. }
    assert (GN : forall z, y_sock z = Some d -> y_outs z = y_outs y -> y_cmd z = y_cmd y -> begun (y_phase z) = true -> Inv p0 A z) by (intros z S1 S2 S3 S4; apply KP; auto).
    destruct s.
    + destruct (y_rd y); [discriminate|]. injection H as <- <-. apply NIL; [|reflexivity]. apply TN; auto.
    + destruct (y_qry y); [destruct (sock_alive y); [discriminate|]|]; injection H as <- <-; (apply NIL; [|reflexivity]); [apply GN|apply TN]; auto.
    + destruct (y_port y); [discriminate|]. injection H as <- <-. apply NIL; [|reflexivity]. apply TN; auto.
    + destruct (y_port y); [|discriminate]. injection H as <- <-. apply NIL; [|reflexivity]. apply GN; auto.
    + injection H as <- <-. apply NIL; [|reflexivity]. apply TN; auto.
    + injection H as <- <-. apply NIL; [|reflexivity]. apply GN; auto.
  - assert (SA : sock_alive y = true) by (unfold sock_alive; rewrite SK; reflexivity). rewrite SA in H. unfold send_cmd in H.
    destruct (y_phase y) as [l| |l|] eqn:PH; try discriminate.
    + destruct l as [|c l]; [injection H as <- <-; apply NIL; [|reflexivity]; apply KP; auto|]. destruct (_ <? _); [|discriminate]. injection H as <- <-. apply NIL; [|reflexivity].
      eapply more with (c := (DHT, c)); [exact V|exact SK| | |reflexivity]; rewrite PH; [|discriminate]. intros l0 E. injection E as <-. exists l. auto.
    + destruct l as [|c l]; [discriminate|]. destruct (_ <? _); [|discriminate]. injection H as <- <-. apply NIL; [|reflexivity].
      eapply more with (c := (DHT, c)); [exact V|exact SK| | |reflexivity]; rewrite PH; [discriminate|auto].
  - destruct (y_phase y) as [l| |l|] eqn:PH; try discriminate. destruct l; [|discriminate].
    assert (GN : forall z, y_sock z = Some d -> y_outs z = y_outs y -> y_cmd z = y_cmd y -> begun (y_phase z) = true -> Inv p0 A z) by (intros z S1 S2 S3 S4; apply KP; auto).
    destruct (_ && _); [destruct (spawn_fetcher _ _ _ _ _) as [[f|]| |]|]; injection H as <- <-; (apply NIL; [|reflexivity]); apply GN; auto.
  - destruct (y_fet y) as [f|] eqn:FT; [|discriminate]. destruct (y_fout y); [|discriminate]. destruct (fstep _ _ _) as [[f' os]| |]; try discriminate; injection H as <- <-; (apply NIL; [|reflexivity]); apply (FE f eq_refl); auto.
  - destruct (y_fet y) as [f|] eqn:FT; [|discriminate]. destruct (y_fout y); [|discriminate]. destruct (y_rf y); [discriminate|]. destruct (fstep _ _ _) as [[f' os]| |]; try discriminate; injection H as <- <-; (apply NIL; [|reflexivity]); apply (FE f eq_refl); auto.
  - destruct (y_fet y) as [f|] eqn:FT; [|discriminate]. destruct (y_fout y); [|discriminate]. destruct (fstep _ _ _) as [[f' os]| |]; try discriminate; injection H as <- <-; (apply NIL; [|reflexivity]); apply (FE f eq_refl); auto.
  - destruct (y_fet y) as [f|] eqn:FT; [|discriminate]. destruct (y_fout y) as [|c l]; [discriminate|]. assert (SA : sock_alive y = true) by (unfold sock_alive; rewrite SK; reflexivity). rewrite SA in H. unfold send_cmd in H. destruct (_ <? _); [|discriminate]. injection H as <- <-. apply NIL; [|reflexivity].
    pose proof (BG f eq_refl) as B. eapply more with (c := (FETCHER, c)) (p := y_phase y); [exact V|exact SK| |auto|]; [intros l0 E; rewrite E in B; discriminate|]. cbn. rewrite FT. reflexivity.
  - destruct (_ && _); [|discriminate]. injection H as <- <-. apply NIL; [|reflexivity]. apply KP; auto.
  - destruct (q_step _ _) as [[m ot]| |]; try discriminate. injection H as <- <-. apply NIL; [|reflexivity]. apply KP; auto.
Qed.
Lemma run_Inv : forall es A y y' h, Inv p0 A y -> yrun y es = Some (y', h) -> Inv p0 (A ++ qs (flat_map snd h)) y'.
Proof.
  induction es as [|e es IH]; intros A y y' h V H; cbn [DhtSysModel.yrun] in H; [injection H as <- <-; cbn; rewrite app_nil_r; exact V|]. destruct (ystep y e) as [[y1 o]|] eqn:ST; [|discriminate]. destruct (yrun y1 es) as [[y2 h2]|] eqn:R; [|discriminate]. injection H as <- <-.
  cbn [flat_map snd]. rewrite qs_app, app_assoc. eapply IH; [|exact R]. eapply step_Inv; eauto.
Qed.
End p0.
Definition pings (t : table) : list (addr * kmsg) := map (fun n => (n_addr n, query_message own [] QPing)) (t_nodes t).
Lemma start_Inv : forall secret info m t, Inv (pings t) [] (sys_start own secret info m t).
Proof. intros secret info m t. unfold Inv. cbn. split; [reflexivity|]. split; [reflexivity|]. unfold start_pings, pings. induction (t_nodes t) as [|n l IH]; cbn; [reflexivity|]. f_equal. exact IH. Qed.
End first.

(** The first queries ever sent are one ping to each stored node, in the order of
    the table. *)
Theorem C131_first : forall sha usize_max cap tcp_port own secret info m t es y h i n, yrun sha usize_max cap tcp_port (sys_start own secret info m t) es = Some (y, h) ->
  nth_error (t_nodes t) i = Some n -> i < length (queries h) -> exists tid, nth_error (queries h) i = Some (n_addr n, query_message own tid QPing).
Proof.
  intros sha um cap tp own secret info m t es y h i n R N L. pose proof (@run_Inv sha um cap tp own (pings own t) es [] _ _ _ (start_Inv own secret info m t) R) as V. cbn [app] in V.
  assert (X : exists r1 r2, qs (flat_map snd h) ++ r1 = pings own t ++ r2).
  { assert (V' : Inv own (pings own t) (qs (flat_map snd h)) (with_sock y None [])) by (eapply drop; [exact V|reflexivity]). exact V'. }
  destruct X as (r1 & r2 & X). destruct (nth_error (queries h) i) as [[a q]|] eqn:Q; [|apply nth_error_None in Q; lia].
  assert (E1 : nth_error (qs (flat_map snd h) ++ r1) i = Some (erase (a, q))). { unfold qs. fold (queries h). rewrite nth_error_app1 by (rewrite map_length; exact L). rewrite nth_error_map, Q. reflexivity. }
  rewrite X in E1. rewrite nth_error_app1 in E1 by (unfold pings; rewrite map_length; apply nth_error_Some; congruence). unfold pings in E1. rewrite nth_error_map, N in E1. injection E1 as E1.
  assert (A : a = n_addr n) by (destruct q; cbn in E1; injection E1; auto). subst a. symmetry in E1. destruct (@erase_inv own _ _ QPing E1) as (tid & ->). eauto.
Qed.
(** Once the start is over and nothing waits to be sent, all of them have been. *)
Theorem C131_all : forall sha usize_max cap tcp_port own secret info m t es y h, yrun sha usize_max cap tcp_port (sys_start own secret info m t) es = Some (y, h) ->
  settled y -> length (t_nodes t) <= length (queries h).
Proof.
  intros sha um cap tp own secret info m t es y h R (S1 & S2 & S3 & S4). pose proof (@run_Inv sha um cap tp own (pings own t) es [] _ _ _ (start_Inv own secret info m t) R) as V. cbn [app] in V. unfold Inv in V. destruct (y_sock y); [|congruence]. destruct V as (_ & V).
  assert (X : exists r, qs (flat_map snd h) ++ stream own y = pings own t ++ r) by (destruct (y_phase y); [destruct S4|exact V..]). destruct X as (r & X). unfold stream in X. rewrite S2, S3 in X. cbn in X. rewrite app_nil_r in X.
  apply (f_equal (@length _)) in X. unfold qs in X. fold (queries h) in X. unfold pings in X. rewrite app_length, !map_length in X. lia.
Qed.

(** A client with two stored nodes; a stranger's ping comes in between and is
    answered, and the table is refreshed afterwards. *)
Definition pk0 : picker := fun _ l => l.
Definition ex_addr (k : byte) : addr := mk_addr x0a x00 x00 k 6881.
Definition ex_own : ID := repeat x11 20.
Definition ex_two : res table := rbind (touch_node 0 (repeat x22 20) (ex_addr x01) (t_default ex_own)) (touch_node 0 (repeat x33 20) (ex_addr x02)).
Definition ex_table : table := match ex_two with Val t => t | _ => t_default [] end.
Definition ex_es : list yev :=
  [YSend; YIn (ex_addr x09) (ping_query (repeat x44 20) [x63]); YOut; YSend; YCmd [x61]; YOut; YSend; YCmd [x62]; YOut].
Example C131_example : ex_two = Val ex_table /\ length (t_nodes ex_table) = 2 /\
  exists y h, yrun (fun s => s) 100 CAPS 6881 (sys_start ex_own [x01] (repeat x55 20) [] ex_table) ex_es = Some (y, h) /\ settled y /\ length (flat_map snd h) = 3 /\
    map fst (queries h) = [ex_addr x01; ex_addr x02].
Proof.
  split; [vm_compute; reflexivity|]. split; [vm_compute; reflexivity|].
  assert (X : match yrun (fun s => s) 100 CAPS 6881 (sys_start ex_own [x01] (repeat x55 20) [] ex_table) ex_es with
    | Some (y, h) => match y_sock y, y_outs y, y_cmd y, y_phase y, queries h with Some _, [], [], PIdle, [(a, _); (b, _)] => addr_eqb a (ex_addr x01) && addr_eqb b (ex_addr x02) && (length (flat_map snd h) =? 3) | _, _, _, _, _ => false end
    | None => false end = true) by (vm_compute; reflexivity).
  destruct (yrun _ _ _ _ _ _) as [[y h]|]; [|discriminate]. exists y, h. split; [reflexivity|].
  destruct (y_sock y) eqn:E1; [|discriminate]. destruct (y_outs y) eqn:E2; [|discriminate]. destruct (y_cmd y) eqn:E3; [|discriminate]. destruct (y_phase y) eqn:E4; try discriminate. destruct (queries h) as [|[a ?] [|[b ?] [|]]] eqn:E5; try discriminate.
  apply andb_true_iff in X. destruct X as (X & X3). apply andb_true_iff in X. destruct X as (X1 & X2). apply addr_eqb_spec in X1, X2. apply Nat.eqb_eq in X3. subst a b. split; [|split; [exact X3|reflexivity]].
  split; [congruence|]. split; [exact E2|]. split; [exact E3|]. rewrite E4. exact I.
Qed.

Print Assumptions C131_first.
Print Assumptions C131_all.
