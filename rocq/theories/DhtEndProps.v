(** C93: the routing table is kept when the DHT ends. *)
From Coq Require Import List NArith ZArith Lia Bool Arith.
From Coq Require Import Init.Byte.
From Verif Require Import Base Assoc IdModel WireModel TableModel TableSpec PeersModel PeersSpec BencodeModel KrpcModel DhtModel DhtSpec DhtMgrModel FetchModel TaskModel
  DhtSysModel DhtSysSpec DhtSysProps.
Import ListNotations.
Set Implicit Arguments.

Section ends.
Variable sha : bytes -> bytes.
Variable usize_max : nat.
Variable cap : caps.
Variable tcp_port : N.
Notation step := (ystep sha usize_max cap tcp_port).
Notation run := (yrun sha usize_max cap tcp_port).
(** The table the DHT task holds. *)
Definition table_of (y : sys) : table := g_table (k_mgr (y_dht y)).
Lemma dht_turn_stored : forall y now pick i, y_stored (dht_turn y now pick i) = y_stored y.
Proof. intros. unfold dht_turn. destruct (gstep now pick (mgr_of y) i) as [[s os]| |]; reflexivity. Qed.
(** Only the shutdown branch writes a table, the one held at that time, and it
    ends the task; an ended task does nothing. *)
Lemma stored_step : forall y e y' o, step y e = Some (y', o) ->
  (y_stored y' = y_stored y /\ (y_phase y = PGone -> y_phase y' = PGone /\ y_dht y' = y_dht y)) \/
  (exists now pick, e = YTurn now pick SShutdown /\ y_phase y = PIdle /\ y_phase y' = PGone /\ y_stored y' = Some (table_of y)).
Proof.
  intros y e y' o H. destruct e as [from m|t'| | | |now pick sr| |now2 now3| | | | |ad|q]; cbn [ystep] in H.
  - left. inv_step H. match goal with |- context [after_sock ?y ?r] => destruct r as [[? ?]| |] end; cbn; auto.
  - left. inv_step H. match goal with |- context [after_sock ?y ?r] => destruct r as [[? ?]| |] end; cbn; auto.
  - left. destruct (y_sock y) as [d|]; [|discriminate]. destruct (y_outs y) as [|x os]; [discriminate|].
    unfold sock_out, hand_over in H. destruct x as [to m|tg fr tt|ih fr tt|p ih|req r]; [| | | |destruct (req =? DHT)];
    repeat match type of H with context [if ?b then _ else _] => destruct b end; try discriminate; injection H as <- <-; cbn; auto.
  - left. inv_step H. cbn. auto.
  - left. inv_step H. cbn. auto.
  - destruct (y_phase y) eqn:P; try discriminate. destruct sr; inv_step H; try (left; rewrite ?dht_turn_stored; split; [reflexivity|discriminate]).
    right. eexists _, _. split; [reflexivity|]. cbn. auto.
  - left. inv_step H; try match goal with E : send_cmd _ _ _ _ = Some _ |- _ => apply send_frame in E; destruct E as (-> & _) end; split; try reflexivity; discriminate.
  - left. inv_step H; split; try reflexivity; discriminate.
  - left. inv_step H; cbn; auto.
  - left. inv_step H; cbn; auto.
  - left. inv_step H; cbn; auto.
  - left. inv_step H; try match goal with E : send_cmd _ _ _ _ = Some _ |- _ => apply send_frame in E; destruct E as (-> & _) end; cbn; auto.
  - left. inv_step H; cbn; auto.
  - left. inv_step H; cbn; auto.
Qed.
Lemma gone_for_ever : forall es y y' h, y_phase y = PGone -> run y es = Some (y', h) -> y_phase y' = PGone /\ y_stored y' = y_stored y.
Proof.
  intros es y y' h G R.
  apply (@yrun_inv sha usize_max cap tcp_port (fun _ z => y_phase z = PGone /\ y_stored z = y_stored y) y) with (es := es) (h := h); auto.
  clear. intros h z e z' o (G & S) H. destruct (stored_step _ _ H) as [(E & I)|(? & ? & _ & P & _)]; [|congruence]. destruct (I G). split; congruence.
Qed.
End ends.

(** What is on disk after a run is the table the DHT task held when it took the
    shutdown branch, after which nothing changes it. *)
Theorem C93_shutdown_saves : forall sha usize_max cap tcp_port own secret info m t es y h tb,
  yrun sha usize_max cap tcp_port (sys_start own secret info m t) es = Some (y, h) -> y_stored y = Some tb ->
  y_phase y = PGone /\
  exists es1 now pick es2 y1 h1, es = es1 ++ YTurn now pick SShutdown :: es2 /\
    yrun sha usize_max cap tcp_port (sys_start own secret info m t) es1 = Some (y1, h1) /\ y_phase y1 = PIdle /\ tb = table_of y1.
Proof.
  intros sha usize_max cap tcp_port own secret info m t es. induction es as [|e es IH] using rev_ind; intros y h tb R S.
  - cbn in R. injection R as <- <-. discriminate.
  - apply yrun_snoc in R. destruct R as (y1 & h1 & o & R1 & H & ->).
    destruct (stored_step _ _ _ _ _ _ H) as [(E & I)|(now & pick & -> & P & P' & E)].
    + rewrite E in S. destruct (IH y1 h1 tb R1 S) as (G & es1 & now & pick & es2 & y2 & h2 & -> & Q). split; [apply (I G)|].
      exists es1, now, pick, (es2 ++ [e]), y2, h2. split; [rewrite <- app_assoc; reflexivity|exact Q].
    + split; [exact P'|]. exists es, now, pick, [], y1, h1. sp; auto. congruence.
Qed.
(** Whenever the DHT task is in [select!], a shutdown saves the table. *)
Theorem C93_shutdown_taken : forall sha usize_max cap tcp_port y now pick, y_phase y = PIdle ->
  exists y', ystep sha usize_max cap tcp_port y (YTurn now pick SShutdown) = Some (y', []) /\ y_stored y' = Some (table_of y) /\ y_phase y' = PGone.
Proof. intros. cbn [ystep]. rewrite H. eexists. sp; reflexivity. Qed.
(** Any other end of the DHT task loses the table, whatever was learnt and
    whatever happens later, a shutdown included. *)
Theorem C93_other_end_loses : forall sha usize_max cap tcp_port own secret info m t es y h es' y' h',
  yrun sha usize_max cap tcp_port (sys_start own secret info m t) es = Some (y, h) -> y_phase y = PGone ->
  (forall now pick, ~ In (YTurn now pick SShutdown) es) ->
  yrun sha usize_max cap tcp_port y es' = Some (y', h') -> y_stored y' = None.
Proof.
  intros sha usize_max cap tcp_port own secret info m t es y h es' y' h' R G N R'.
  destruct (@gone_for_ever sha usize_max cap tcp_port es' y y' h' G R') as (_ & ->).
  destruct (y_stored y) as [tb|] eqn:S; [|reflexivity]. destruct (@C93_shutdown_saves _ _ _ _ _ _ _ _ _ _ _ _ _ R S) as (_ & es1 & now & pick & es2 & _ & _ & -> & _).
  destruct (N now pick). apply in_or_app. right. left. reflexivity.
Qed.
(** The full claim, that the table is kept however the DHT task ends, is false:
    one error when reading from the socket ends
    everything and the table with a node learnt is not written. *)
Definition C93_always (sha : bytes -> bytes) (usize_max : nat) (cap : caps) (tcp_port : N) (own secret info : ID) (m : peers) (t : table) : Prop :=
  forall es y h, yrun sha usize_max cap tcp_port (sys_start own secret info m t) es = Some (y, h) -> y_phase y = PGone -> y_stored y = Some (table_of y).
Definition ex_learn : list yev :=
  [YSend; YPort (ex_addr 0); YTurn 0%N ex_pick SPort; YSend; YCmd [x01]; YOut; YCheck 0%N 0%N;
   YIn (ex_addr 0) (ping_resp ex_node [x01]); YOut; YTurn 0%N ex_pick SResp; YCheck 0%N 0%N].
Theorem C93_kept_refuted : forall sha usize_max tcp_port secret,
  ~ C93_always sha usize_max CAPS tcp_port ex_own secret ex_info [] (t_default ex_own) /\
  exists es y h, yrun sha usize_max CAPS tcp_port (sys_start ex_own secret ex_info [] (t_default ex_own)) es = Some (y, h) /\
    TableSpec.known (table_of y) ex_node /\ y_phase y = PGone /\
    forall es' y' h', yrun sha usize_max CAPS tcp_port y es' = Some (y', h') -> y_stored y' = None.
Proof.
  intros sha usize_max tcp_port secret.
  assert (W : exists es y h, yrun sha usize_max CAPS tcp_port (sys_start ex_own secret ex_info [] (t_default ex_own)) es = Some (y, h) /\
    TableSpec.known (table_of y) ex_node /\ y_phase y = PGone /\ forall now pick, ~ In (YTurn now pick SShutdown) es).
  { exists (ex_learn ++ [YSockErr; YTurn 0%N ex_pick SQuery]). eexists _, _. split; [vm_compute; reflexivity|]. sp.
    - vm_compute. auto.
    - reflexivity.
    - intros now pick I. repeat (destruct I as [I|I]; [discriminate|]). destruct I. }
  destruct W as (es & y & h & R & K & G & N). split.
  - intro A. specialize (A es y h R G). rewrite (@C93_other_end_loses _ _ _ _ _ _ _ _ _ _ _ _ [] y [] R G N eq_refl) in A. discriminate.
  - exists es, y, h. sp; auto. intros es' y' h' R'. exact (@C93_other_end_loses _ _ _ _ _ _ _ _ _ _ _ _ _ _ _ R G N R').
Qed.
(** A run that ends by a shutdown, with the node learnt on disk. *)
Example C93_example : exists y h tb, yrun (fun x => x) 100 CAPS 6881%N (sys_start ex_own ex_own ex_info [] (t_default ex_own)) (ex_learn ++ [YTurn 0%N ex_pick SShutdown]) = Some (y, h) /\
  y_stored y = Some tb /\ TableSpec.known tb ex_node.
Proof. eexists _, _, _. split; [vm_compute; reflexivity|]. split; [reflexivity|vm_compute; auto]. Qed.

Print Assumptions C93_shutdown_saves.
Print Assumptions C93_shutdown_taken.
Print Assumptions C93_other_end_loses.
Print Assumptions C93_kept_refuted.
