(** C91: what the DHT answers. *)
From Coq Require Import List NArith ZArith Lia Bool Arith.
From Coq Require Import Init.Byte.
From Verif Require Import Base Assoc IdModel WireModel TableModel PeersModel PeersSpec BencodeModel KrpcModel DhtModel DhtSpec DhtMgrModel FetchModel TaskModel
  DhtSysModel DhtSysSpec DhtSysProps.
Import ListNotations.
Set Implicit Arguments.

Section reply.
Variable sha : bytes -> bytes.
Variable usize_max : nat.
Variable cap : caps.
Variable tcp_port : N.
Notation step := (ystep sha usize_max cap tcp_port).
Notation run := (yrun sha usize_max cap tcp_port).
Variables (k : kind) (a : addr) (t : bytes).

(** What is on its way to becoming an answer to such a query. *)
Definition key (k' : kind) (a' : addr) (t' : bytes) : bool := kind_eqb k' k && addr_eqb a' a && bytes_eqb t' t.
Definition in_out (o : out) : bool :=
  match o with OSend a' m => is_reply k a t (a', m) | OFindNode _ a' t' => key KFindNode a' t' | OGetPeers _ a' t' => key KGetPeers a' t' | _ => false end.
Definition in_gin (i : gin) : bool := match i with GFindNode _ a' t' => key KFindNode a' t' | GGetPeers _ a' t' => key KGetPeers a' t' | _ => false end.
Definition in_cmd (c : to_con) : bool :=
  match c with
  | CReply a' t' r => key (match r with PPing => KPing | PFindNode _ => KFindNode | PGetPeers _ => KGetPeers | PAnnounce => KAnnounce end) a' t'
  | CQuery _ _ => false
  end.
Definition cnt {A} (p : A -> bool) (l : list A) : nat := length (filter p l).
Lemma cnt_app : forall A (p : A -> bool) l1 l2, cnt p (l1 ++ l2) = cnt p l1 + cnt p l2.
Proof. intros. unfold cnt. rewrite filter_app, app_length. reflexivity. Qed.
Lemma cnt_cons : forall A (p : A -> bool) x l, cnt p (x :: l) = (if p x then 1 else 0) + cnt p l.
Proof. intros. unfold cnt. cbn. destruct (p x); reflexivity. Qed.
Lemma cnt_nil : forall A (p : A -> bool), cnt p [] = 0.
Proof. reflexivity. Qed.
Lemma cnt_zero : forall A (p : A -> bool) l, (forall x, In x l -> p x = false) -> cnt p l = 0.
Proof. intros A p l H. induction l as [|x l IH]; [reflexivity|]. rewrite cnt_cons, (H x (or_introl eq_refl)), IH; [reflexivity|]. intros y Y. apply H. right. exact Y. Qed.
Definition in_phase (p : phase) : nat := match p with PStart l | PSend l => cnt in_cmd l | _ => 0 end.
Definition flying (y : sys) : nat := cnt in_gin (y_qry y) + in_phase (y_phase y) + cnt (fun c => in_cmd (snd c)) (y_cmd y) + cnt in_cmd (y_fout y).
Lemma is_reply_send : forall own t' token r a', is_reply k a t (a', resp_message own t' token r) = in_cmd (CReply a' t' r).
Proof. intros own t' token [] a'; reflexivity. Qed.

(** The socket task makes at most one answer of a query, and none of anything
    else. *)
Lemma sock_in : forall d from m d' o, dstep sha all_there d (EIn from m) = Val (d', o) -> cnt in_out o <= (if is_query k a t (YIn from m) then 1 else 0).
Proof.
  intros d from m d' o H. destruct m as [t' y' q args|t' y' r|t' y' e]; cbn [dstep] in H.
  - unfold handle_query in H. cbn [is_query]. destruct args as [id ih p token|id tg|id ih|id]; cbn [kind_queried]; [destruct (token_is_valid sha d token from)| | |].
    + cbn [to_listener all_there e_listener rbind fst snd send_reply] in H. injection H as <- <-. cbn [app]. rewrite !cnt_cons, cnt_nil. cbn [in_out]. cbn. lia.
    + injection H as <- <-. rewrite cnt_nil. lia.
    + cbn [to_listener all_there e_listener] in H. injection H as <- <-. rewrite cnt_cons, cnt_nil. cbn [in_out]. unfold key. lia.
    + cbn [to_listener all_there e_listener] in H. injection H as <- <-. rewrite cnt_cons, cnt_nil. cbn [in_out]. unfold key. lia.
    + unfold send_reply in H. injection H as <- <-. rewrite cnt_cons, cnt_nil. cbn [in_out]. cbn. lia.
  - unfold handle_resp in H. destruct (pend_get (d_pending d) t' (kind_of_resp r)) as [p [req|]]; cbn [all_there e_alive] in H; injection H as <- <-; cbn; lia.
  - injection H as <- <-. cbn. lia.
Qed.
Lemma sock_cmd : forall d req c t' d' o, dstep sha all_there d (match c with CQuery tg qu => EQuery req tg qu t' | CReply tg t' r => EReply tg t' r end) = Val (d', o) ->
  cnt in_out o = if in_cmd c then 1 else 0.
Proof.
  intros d req c t' d' o H. destruct c as [tg qu|tg t2 r]; cbn [dstep] in H.
  - unfold send_query in H. destruct qu; cbn in H; injection H as <- <-; reflexivity.
  - unfold send_reply in H. injection H as <- <-. rewrite cnt_cons, cnt_nil. cbn [in_out]. rewrite is_reply_send. lia.
Qed.
Lemma dht_out : forall now pick s i s' o, gstep now pick s i = Val (s', o) -> cnt in_cmd o <= (if in_gin i then 1 else 0).
Proof.
  intros now pick s i s' o H. destruct i as [tg from t'|ih from t'|p ih|r|draws|ad|q]; cbn [gstep] in H.
  - unfold on_find_node in H. destruct (find_node now (g_table s) tg) as [[n|]| |]; try discriminate; injection H as <- <-; rewrite ?cnt_cons, ?cnt_nil; cbn [in_gin in_cmd]; lia.
  - unfold on_get_peers in H. destruct (find_peers pick s ih) as [[m [l|]]| |]; try discriminate; cbn [rbind fst snd] in H.
    + injection H as <- <-. rewrite cnt_cons, cnt_nil. cbn [in_gin in_cmd]. lia.
    + destruct (find_node now (g_table s) ih) as [[n|]| |]; try discriminate; injection H as <- <-; rewrite ?cnt_cons, ?cnt_nil; cbn [in_gin in_cmd]; lia.
  - injection H as <- <-. cbn; lia.
  - unfold on_resp in H. destruct r as [id from|n from id|from tk v].
    + destruct (touch_node now id from (g_table s)); try discriminate. injection H as <- <-. cbn; lia.
    + destruct (touch_node now id from (g_table s)) as [tt| |]; try discriminate. cbn [rbind] in H. destruct (unknown_addrs tt (nodes_list n)); try discriminate. injection H as <- <-.
      rewrite cnt_zero; [lia|]. intros x X. apply in_map_iff in X. destruct X as (z & <- & _). reflexivity.
    + injection H as <- <-. cbn; lia.
  - unfold refresh_table in H. destruct (iter_over_ids now (g_table s) draws) as [ids| |]; try discriminate. cbn [rbind] in H.
    destruct (find_nodes_for now (g_table s) ids) as [l| |] eqn:E; try discriminate. injection H as <- <-. cbn [in_gin].
    assert (Z : forall ids l, find_nodes_for now (g_table s) ids = Val l -> cnt in_cmd l = 0).
    { clear. induction ids as [|i ids IH]; intros l E; cbn [find_nodes_for] in E; [injection E as <-; reflexivity|].
      destruct (get_closest_nodes now (g_table s) i) as [c| |]; try discriminate. cbn [rbind] in E. destruct (find_nodes_for now (g_table s) ids) as [l'| |]; try discriminate.
      injection E as <-. rewrite cnt_app, (IH l' eq_refl). destruct c as [[|n ?]|]; reflexivity. }
    rewrite (Z _ _ E). lia.
  - injection H as <- <-. cbn; lia.
  - destruct (q_step (g_peers s) q) as [[? ?]| |]; try discriminate. injection H as <- <-. cbn; lia.
Qed.
Lemma queries_only : forall l, (forall c, In c l -> exists ad q, c = CQuery ad q) -> cnt in_cmd l = 0.
Proof. intros l H. apply cnt_zero. intros c C. destruct (H c C) as (ad & q & ->). reflexivity. Qed.
Lemma announce_only : forall p ih m c, In c (announce_peer p ih m) -> exists ad q, c = CQuery ad q.
Proof. intros p ih m c C. unfold announce_peer in C. apply in_map_iff in C. destruct C as ([ad tk] & <- & _). eauto. Qed.
Lemma new_nodes_only : forall ih l m c, In c (snd (new_nodes ih l m)) -> exists ad q, c = CQuery ad q.
Proof.
  intros ih l. induction l as [|n l IH]; intros m c C; cbn [new_nodes] in C; [destruct C|]. destruct (mhas addr_eqb (n_addr n) m); [eapply IH; eauto|].
  cbn [snd] in C. destruct C as [<-|C]; [eauto|eapply IH; eauto].
Qed.
Lemma fet_out : forall f e f' o c, fstep usize_max f e = Val (f', o) -> In c o -> exists ad q, c = CQuery ad q.
Proof.
  intros f e f' o c H C. destruct e as [|r| |q]; cbn [fstep] in H.
  - destruct (fs_busy f); try discriminate. injection H as <- <-. apply in_map_iff in C. destruct C as (z & <- & _). eauto.
  - destruct r as [id from|n from id|from tk v], (fs_busy f); try discriminate; try (injection H as <- <-; destruct C; fail).
    destruct (mget addr_eqb from (fs_nodes f)) as [old|]; [|injection H as <- <-; destruct C].
    unfold on_answer in H. destruct v as [l|n].
    + destruct (ACTIVE_CLOSE_NODES_CAP_HIGH <=? _).
      * destruct (q_enough usize_max _) as [[m [|]]| |]; try discriminate; cbn [rmap fst snd negb app] in H; injection H as <- <-; [eapply announce_only; exact C|destruct C].
      * cbn [rmap] in H. injection H as <- <-. destruct C.
    + destruct (new_nodes (fs_info f) (nodes_list n) (mset addr_eqb from (FPeerless (f_id old) tk) (fs_nodes f))) as [m q] eqn:NN.
      assert (Q : forall c, In c q -> exists ad q', c = CQuery ad q'). { intros c' C'. eapply (@new_nodes_only (fs_info f) (nodes_list n)). rewrite NN. exact C'. }
      cbn [fst snd] in H. destruct (ACTIVE_CLOSE_NODES_CAP_HIGH <=? _).
      * destruct (q_enough usize_max _) as [[m' [|]]| |]; try discriminate; cbn [rmap fst snd negb] in H; injection H as <- <-; [|auto].
        apply in_app_or in C. destruct C as [C|C]; [auto|eapply announce_only; exact C].
      * cbn [rmap] in H. injection H as <- <-. auto.
  - destruct (fs_busy f); try discriminate. injection H as <- <-. eapply announce_only; exact C.
  - destruct (q_step (fs_peers f) q) as [[? ?]| |]; try discriminate. injection H as <- <-. destruct C.
Qed.

Lemma replied_snoc : forall h e o, replied k a t (h ++ [(e, o)]) = replied k a t h + cnt (is_reply k a t) o.
Proof. intros. unfold replied, sent. rewrite flat_map_app, filter_app, app_length. cbn. rewrite app_nil_r. reflexivity. Qed.
Lemma asked_snoc : forall h e o, asked k a t (h ++ [(e, o)]) = asked k a t h + (if is_query k a t e then 1 else 0).
Proof. intros. unfold asked. rewrite map_app, filter_app, app_length. cbn. destruct (is_query k a t e); reflexivity. Qed.

Ltac fl := unfold flying; cbn [with_sock with_cmd with_qry with_rd with_rf with_port with_phase with_dht with_fet with_peers with_stored y_outs y_qry y_phase y_cmd y_fout in_phase is_query];
  rewrite ?cnt_app, ?cnt_cons, ?cnt_nil; cbn [snd in_gin in_out]; lia.
(** One step: what is sent and what is left on the way is not more than what was
    on the way before, plus a query just taken in. For the socket task's own
    part, as long as it lives, equality. *)
Lemma step_count : forall y e y' o, step y e = Some (y', o) ->
  cnt (is_reply k a t) o + cnt in_out (y_outs y') + flying y' <= cnt in_out (y_outs y) + flying y + (if is_query k a t e then 1 else 0).
Proof.
  intros y e y' o H. destruct e as [from m|t'| | | |now pick sr| |now2 now3| | | | |ad|q]; cbn [ystep] in H.
  - destruct (y_sock y) as [d|]; [|discriminate]. destruct (y_outs y) eqn:O; [|discriminate]. injection H as <- <-.
    change (cnt in_out (@nil out)) with 0. match goal with |- context [after_sock ?z ?x] => destruct x as [[d' os]| |] eqn:D end; cbn [after_sock with_sock y_outs];
      unfold flying; cbn [after_sock with_sock with_cmd y_qry y_phase y_cmd y_fout]; rewrite !cnt_nil; try lia. apply (@sock_in d from m) in D. lia.
  - destruct (y_sock y) as [d|]; [|discriminate]. destruct (y_outs y) eqn:O; [|discriminate]. destruct (y_cmd y) as [|[req c] cq] eqn:C; [discriminate|]. injection H as <- <-.
    match goal with |- context [after_sock ?z ?x] => destruct x as [[d' os]| |] eqn:D end; cbn [after_sock with_sock with_cmd y_outs];
      unfold flying; cbn [after_sock with_sock with_cmd y_qry y_phase y_cmd y_fout]; rewrite C, cnt_cons, !cnt_nil; cbn [snd is_query]; try lia.
    apply (@sock_cmd d req c t') in D. rewrite D. lia.
  - destruct (y_sock y) as [d|]; [|discriminate]. destruct (y_outs y) as [|x os] eqn:O; [discriminate|]. rewrite cnt_cons.
    unfold sock_out, hand_over in H. destruct x as [to m|tg fr tt|ih fr tt|p ih|req r]; [| | | |destruct (req =? DHT)];
    repeat match type of H with context [if ?b then _ else _] => destruct b end; try discriminate; injection H as <- <-;
    unfold flying; cbn [with_sock with_qry with_rd with_rf y_outs y_qry y_phase y_cmd y_fout in_out is_query]; rewrite ?cnt_app, ?cnt_cons, ?cnt_nil; cbn [in_gin in_out]; lia.
  - destruct (y_sock y); [|discriminate]. destruct (y_outs y) eqn:O; [|discriminate]. injection H as <- <-. fl.
  - inv_step H. fl.
  - destruct (y_phase y) eqn:P; try discriminate.
    assert (T : forall z i, y_phase z = PIdle -> y_outs z = y_outs y -> y_cmd z = y_cmd y -> y_fout z = y_fout y ->
      (if in_gin i then 1 else 0) + cnt in_gin (y_qry z) <= cnt in_gin (y_qry y) ->
      cnt in_out (y_outs (dht_turn z now pick i)) + flying (dht_turn z now pick i) <= cnt in_out (y_outs y) + flying y).
    { intros z i E1 E2 E3 E4 L. unfold dht_turn. destruct (gstep now pick (mgr_of z) i) as [[s os]| |] eqn:G.
      - apply dht_out in G. unfold flying. cbn [with_dht y_outs y_qry y_phase y_cmd y_fout in_phase]. rewrite E2, E3, E4, P. cbn [in_phase]. lia.
      - unfold flying. cbn [with_phase y_outs y_qry y_phase y_cmd y_fout in_phase]. rewrite E2, E3, E4, P. cbn [in_phase]. lia.
      - unfold flying. cbn [with_phase y_outs y_qry y_phase y_cmd y_fout in_phase]. rewrite E2, E3, E4, P. cbn [in_phase]. lia. }
    destruct sr; cbn [is_query].
    + destruct (y_rd y); [discriminate|]. injection H as <- <-. rewrite cnt_nil. rewrite Nat.add_0_r. apply T; auto.
    + destruct (y_qry y) as [|i qq] eqn:Q.
      * inv_step H. unfold flying; cbn [with_phase y_qry y_phase y_outs y_cmd y_fout]; rewrite Q, P; fl.
      * injection H as <- <-. rewrite cnt_nil. rewrite Nat.add_0_r. apply T; auto. cbn [with_qry y_qry]. rewrite cnt_cons. lia.
    + destruct (y_port y); [discriminate|]. injection H as <- <-. rewrite cnt_nil. rewrite Nat.add_0_r. apply T; auto.
    + inv_step H. unfold flying; cbn [with_phase with_stored y_qry y_phase y_outs y_cmd y_fout]; rewrite P; fl.
    + injection H as <- <-. rewrite cnt_nil. rewrite Nat.add_0_r. apply T; auto.
    + injection H as <- <-. unfold flying; cbn [with_phase with_stored y_qry y_phase y_outs y_cmd y_fout]; rewrite P; fl.
  - inv_step H; try match goal with E : send_cmd _ _ _ _ = Some _ |- _ => apply send_frame in E; destruct E as (-> & _) end; unfold flying; cbn [with_phase with_cmd y_outs y_qry y_phase y_cmd y_fout in_phase is_query];
    rewrite ?Heqp; cbn [in_phase]; rewrite ?cnt_app, ?cnt_cons, ?cnt_nil; cbn [snd]; lia.
  - inv_step H; unfold flying; cbn [with_phase with_fet with_dht y_outs y_qry y_phase y_cmd y_fout in_phase is_query]; rewrite ?Heqp; cbn [in_phase]; rewrite ?cnt_nil; lia.
  - inv_step H; unfold flying; cbn [with_fet y_outs y_qry y_phase y_cmd y_fout is_query]; rewrite ?cnt_nil; try lia.
    match goal with E : fstep _ _ _ = Val (_, ?l) |- _ => rewrite (@queries_only l) by (intros c C; eapply fet_out; [exact E|exact C]) end. lia.
  - inv_step H; unfold flying; cbn [with_fet with_rf y_outs y_qry y_phase y_cmd y_fout is_query]; rewrite ?cnt_nil; try lia.
    match goal with E : fstep _ _ _ = Val (_, ?l) |- _ => rewrite (@queries_only l) by (intros c C; eapply fet_out; [exact E|exact C]) end. lia.
  - inv_step H; unfold flying; cbn [with_fet y_outs y_qry y_phase y_cmd y_fout is_query]; rewrite ?cnt_nil; try lia.
    match goal with E : fstep _ _ _ = Val (_, ?l) |- _ => rewrite (@queries_only l) by (intros c C; eapply fet_out; [exact E|exact C]) end. lia.
  - inv_step H; try match goal with E : send_cmd _ _ _ _ = Some _ |- _ => apply send_frame in E; destruct E as (-> & _) end;
    unfold flying; cbn [with_fet with_cmd y_outs y_qry y_phase y_cmd y_fout is_query]; rewrite ?Heql; rewrite ?cnt_app, ?cnt_cons, ?cnt_nil; cbn [snd]; lia.
  - inv_step H. fl.
  - inv_step H. fl.
Qed.
End reply.
(** Each query is answered at most once: to the address it came from, with its
    transaction id and by the kind of answer it asks for; nobody who did not ask
    gets an answer. *)
Theorem C91_at_most_once : forall sha usize_max cap tcp_port own secret info m tb es y h k a t,
  yrun sha usize_max cap tcp_port (sys_start own secret info m tb) es = Some (y, h) -> replied k a t h <= asked k a t h.
Proof.
  intros sha usize_max cap tcp_port own secret info m tb es y h k a t R.
  assert (I : replied k a t h + cnt (in_out k a t) (y_outs y) + flying k a t y <= asked k a t h).
  { apply (@yrun_inv sha usize_max cap tcp_port (fun h y => replied k a t h + cnt (in_out k a t) (y_outs y) + flying k a t y <= asked k a t h) (sys_start own secret info m tb)) with (es := es); auto.
    - unfold flying. cbn [sys_start y_outs y_qry y_phase y_cmd y_fout in_phase]. rewrite (@cnt_zero _ _ (start_pings tb)); [cbn; lia|]. intros c C.
      unfold start_pings in C. apply in_map_iff in C. destruct C as (n & <- & _). reflexivity.
    - intros h1 y1 e y2 o I S. apply (@step_count sha usize_max cap tcp_port k a t) in S. rewrite replied_snoc, asked_snoc. lia. }
  lia.
Qed.

(** ** every ping is answered *)
Section ping.
Variable sha : bytes -> bytes.
Variable usize_max : nat.
Variable cap : caps.
Variable tcp_port : N.
Notation step := (ystep sha usize_max cap tcp_port).
Variables (a : addr) (t : bytes).
Lemma no_ping_gin : forall l, cnt (in_gin KPing a t) l = 0.
Proof. intro l. apply cnt_zero. intros [] _; reflexivity. Qed.
Definition ping_free (y : sys) : Prop := in_phase KPing a t (y_phase y) = 0 /\ cnt (fun c => in_cmd KPing a t (snd c)) (y_cmd y) = 0 /\ cnt (in_cmd KPing a t) (y_fout y) = 0.
Lemma ping_free_step : forall y e y' o, ping_free y -> step y e = Some (y', o) -> ping_free y'.
Proof.
  intros y e y' o (A & B & C) H.
  assert (Z : forall z, y_phase z = y_phase y -> y_cmd z = y_cmd y -> y_fout z = y_fout y -> ping_free z) by (intros z E1 E2 E3; unfold ping_free; rewrite E1, E2, E3; auto).
  destruct e as [from m|t'| | | |now pick sr| |now2 now3| | | | |ad|q]; cbn [ystep] in H.
  - inv_step H. match goal with |- context [after_sock ?y ?r] => destruct (@after_frame y r) as (_ & E1 & E2 & _ & _ & _ & E3 & _) end. apply Z; auto.
  - destruct (y_sock y) as [d|]; [|discriminate]. destruct (y_outs y); [|discriminate]. destruct (y_cmd y) as [|[req c] cq] eqn:Q; [discriminate|]. injection H as <- <-.
    match goal with |- context [after_sock ?y ?r] => destruct (@after_frame y r) as (_ & E1 & E2 & _ & _ & _ & E3 & _) end. rewrite cnt_cons in B.
    unfold ping_free. rewrite E1, E2, E3. cbn [with_cmd y_phase y_cmd y_fout]. split; [exact A|]. split; [lia|exact C].
  - destruct (y_sock y) as [d|]; [|discriminate]. destruct (y_outs y) as [|x os]; [discriminate|]. destruct (out_frame _ _ _ _ _ H) as (_ & E1 & E2 & _ & _ & E3). apply Z; auto.
  - inv_step H; apply Z; reflexivity.
  - inv_step H; apply Z; cbn; congruence.
  - assert (T : forall z i, y_cmd z = y_cmd y -> y_fout z = y_fout y -> ping_free (dht_turn z now pick i)).
    { intros z i E2 E3. unfold dht_turn. destruct (gstep now pick (mgr_of z) i) as [[s os]| |] eqn:G; unfold ping_free; cbn [with_dht with_phase y_phase y_cmd y_fout in_phase]; rewrite E2, E3; sp; auto.
      eapply (@dht_out sha KPing a t) in G. destruct i; cbn [in_gin] in G; unfold key in G; cbn in G; lia. }
    destruct (y_phase y) eqn:P; try discriminate.
    destruct sr; inv_step H; try (apply T; reflexivity); unfold ping_free; cbn; auto.
  - destruct (y_phase y) as [[|c l]| |[|c l]|] eqn:P; try discriminate; cbn [in_phase] in A; try rewrite cnt_cons in A.
    + injection H as <- <-. unfold ping_free. cbn. auto.
    + destruct (sock_alive y); [|injection H as <- <-; unfold ping_free; cbn; auto].
      destruct (send_cmd cap y DHT c) as [z|] eqn:E; [|discriminate]. apply send_frame in E. destruct E as (-> & _). injection H as <- <-.
      unfold ping_free. cbn [with_phase with_cmd y_phase y_cmd y_fout in_phase]. rewrite cnt_app, cnt_cons, cnt_nil. cbn [snd]. sp; try lia; auto.
    + destruct (sock_alive y); [|injection H as <- <-; unfold ping_free; cbn; auto].
      destruct (send_cmd cap y DHT c) as [z|] eqn:E; [|discriminate]. apply send_frame in E. destruct E as (-> & _). injection H as <- <-.
      unfold ping_free. cbn [with_phase with_cmd y_phase y_cmd y_fout in_phase]. rewrite cnt_app, cnt_cons, cnt_nil. cbn [snd]. sp; try lia; auto.
  - inv_step H; unfold ping_free; cbn; auto.
  - inv_step H; unfold ping_free; cbn [with_fet y_phase y_cmd y_fout]; sp; auto. apply queries_only. intros c X. eapply fet_out; eauto.
  - inv_step H; unfold ping_free; cbn [with_fet with_rf y_phase y_cmd y_fout]; sp; auto. apply queries_only. intros c X. eapply fet_out; eauto.
  - inv_step H; unfold ping_free; cbn [with_fet y_phase y_cmd y_fout]; sp; auto. apply queries_only. intros c X. eapply fet_out; eauto.
  - destruct (y_fet y) as [f|]; [|discriminate]. destruct (y_fout y) as [|c l]; [discriminate|]. rewrite cnt_cons in C. destruct (sock_alive y); [|injection H as <- <-; unfold ping_free; cbn; auto].
    destruct (send_cmd cap y FETCHER c) as [z|] eqn:E; [|discriminate]. apply send_frame in E. destruct E as (-> & _). injection H as <- <-.
    unfold ping_free. cbn [with_fet with_cmd y_phase y_cmd y_fout in_phase]. rewrite cnt_app, cnt_cons, cnt_nil. cbn [snd]. sp; try lia; auto.
  - inv_step H; apply Z; reflexivity.
  - inv_step H; apply Z; reflexivity.
Qed.
Lemma sock_in_ping : forall d from m d' o, dstep sha all_there d (EIn from m) = Val (d', o) -> cnt (in_out KPing a t) o = (if is_query KPing a t (YIn from m) then 1 else 0).
Proof.
  intros d from m d' o H. destruct m as [t' y' q args|t' y' r|t' y' e]; cbn [dstep] in H.
  - unfold handle_query in H. destruct args as [id ih p token|id tg|id ih|id]; [destruct (token_is_valid sha d token from)| | |];
    cbn [to_listener all_there e_listener rbind fst snd send_reply] in H; injection H as <- <-; cbn [app]; rewrite ?cnt_cons, ?cnt_nil; try reflexivity.
    cbn. lia.
  - unfold handle_resp in H. destruct (pend_get (d_pending d) t' (kind_of_resp r)) as [p [req|]]; cbn [all_there e_alive] in H; injection H as <- <-; reflexivity.
  - injection H as <- <-. reflexivity.
Qed.
Lemma ping_step : forall y e y' o, ping_free y -> step y e = Some (y', o) -> y_sock y' <> None ->
  y_sock y <> None /\ cnt (is_reply KPing a t) o + cnt (in_out KPing a t) (y_outs y') = cnt (in_out KPing a t) (y_outs y) + (if is_query KPing a t e then 1 else 0).
Proof.
  intros y e y' o (A & B & C) H S. destruct e as [from m|t'| | | |now pick sr| |now2 now3| | | | |ad|q]; cbn [ystep] in H.
  - destruct (y_sock y) as [d|]; [|discriminate]. destruct (y_outs y); [|discriminate]. injection H as <- <-. split; [discriminate|].
    revert S. match goal with |- context [after_sock ?z ?x] => destruct x as [[d' os]| |] eqn:D; intro S; [|cbn in S; congruence|cbn in S; congruence] end.
    cbn [after_sock with_sock y_outs]. apply (@sock_in_ping d from m) in D. rewrite D, !cnt_nil. reflexivity.
  - destruct (y_sock y) as [d|]; [|discriminate]. destruct (y_outs y); [|discriminate]. destruct (y_cmd y) as [|[req c] cq]; [discriminate|]. injection H as <- <-. split; [discriminate|].
    revert S. match goal with |- context [after_sock ?z ?x] => destruct x as [[d' os]| |] eqn:D; intro S; [|cbn in S; congruence|cbn in S; congruence] end.
    cbn [after_sock with_sock y_outs is_query]. apply (@sock_cmd sha KPing a t d req c t') in D. rewrite cnt_cons in B. cbn [snd] in B. rewrite D, !cnt_nil. lia.
  - destruct (y_sock y) as [d|] eqn:SY; [|discriminate]. destruct (y_outs y) as [|x os]; [discriminate|]. split; [discriminate|]. rewrite cnt_cons.
    unfold sock_out, hand_over in H. destruct x as [to m|tg fr tt|ih fr tt|p ih|req r]; [| | | |destruct (req =? DHT)];
    repeat match type of H with context [if ?b then _ else _] => destruct b end; try discriminate; injection H as <- <-;
    try (cbn in S; congruence); cbn [with_sock with_qry with_rd with_rf y_outs in_out is_query]; rewrite ?cnt_cons, ?cnt_nil; cbn; lia.
  - inv_step H. cbn in S. congruence.
  - inv_step H. cbn in S. congruence.
  - assert (T : forall z i, y_sock (dht_turn z now pick i) = y_sock z /\ y_outs (dht_turn z now pick i) = y_outs z).
    { intros z i. unfold dht_turn. destruct (gstep now pick (mgr_of z) i) as [[s os]| |]; split; reflexivity. }
    destruct (y_phase y); try discriminate. destruct sr; inv_step H; try (revert S; match goal with |- context [dht_turn ?z ?n ?p ?i] => destruct (T z i) as (-> & ->) end; intro S);
    (split; [exact S|]); cbn [with_qry with_rd with_port with_phase with_stored y_outs is_query]; rewrite ?cnt_nil; lia.
  - inv_step H; try match goal with E : send_cmd _ _ _ _ = Some _ |- _ => apply send_frame in E; destruct E as (-> & _) end; (split; [exact S|]); cbn; unfold cnt; lia.
  - inv_step H; (split; [exact S|]); cbn; unfold cnt; lia.
  - inv_step H; (split; [exact S|]); cbn; unfold cnt; lia.
  - inv_step H; (split; [exact S|]); cbn; unfold cnt; lia.
  - inv_step H; (split; [exact S|]); cbn; unfold cnt; lia.
  - inv_step H; try match goal with E : send_cmd _ _ _ _ = Some _ |- _ => apply send_frame in E; destruct E as (-> & _) end; (split; [exact S|]); cbn; unfold cnt; lia.
  - inv_step H; (split; [exact S|]); cbn; unfold cnt; lia.
  - inv_step H; (split; [exact S|]); cbn; unfold cnt; lia.
Qed.
End ping.
(** As long as the socket task lives, every ping it took in has been answered
    exactly once by the time it is ready for the next message. *)
Theorem C91_ping_answered : forall sha usize_max cap tcp_port own secret info m tb es y h a t,
  yrun sha usize_max cap tcp_port (sys_start own secret info m tb) es = Some (y, h) -> y_sock y <> None -> y_outs y = [] ->
  replied KPing a t h = asked KPing a t h.
Proof.
  intros sha usize_max cap tcp_port own secret info m tb es y h a t R S O.
  assert (I : ping_free a t y /\ (y_sock y <> None -> replied KPing a t h + cnt (in_out KPing a t) (y_outs y) = asked KPing a t h)).
  { apply (@yrun_inv sha usize_max cap tcp_port (fun h y => ping_free a t y /\ (y_sock y <> None -> replied KPing a t h + cnt (in_out KPing a t) (y_outs y) = asked KPing a t h)) (sys_start own secret info m tb)) with (es := es); auto.
    - split; [|reflexivity]. unfold ping_free. cbn [sys_start y_phase y_cmd y_fout in_phase]. sp; auto. apply cnt_zero. intros c C.
      unfold start_pings in C. apply in_map_iff in C. destruct C as (n & <- & _). reflexivity.
    - clear. intros h y e y' o (F & I) H. split; [eapply ping_free_step; eauto|]. intro S. destruct (@ping_step sha usize_max cap tcp_port a t y e y' o F H S) as (S0 & E).
      rewrite replied_snoc, asked_snoc. specialize (I S0). lia. }
  destruct I as (_ & I). specialize (I S). rewrite O in I. cbn in I. lia.
Qed.
(** A ping and a find_node query from two nodes, both answered. *)
Definition ex_talk : list yev :=
  [YSend; YIn (ex_addr 1) (ping_query ex_node [x01]); YOut; YIn (ex_addr 2) (find_nodes_query ex_node ex_info [x02]); YOut;
   YPort (ex_addr 3); YTurn 0%N ex_pick SPort; YSend; YCheck 0%N 0%N; YCmd [x09]; YOut;
   YIn (ex_addr 3) (ping_resp ex_node [x09]); YOut; YTurn 0%N ex_pick SResp; YCheck 0%N 0%N;
   YTurn 0%N ex_pick SQuery; YSend; YCmd []; YOut].
Example C91_example : exists y h, yrun (fun x => x) 100 CAPS 6881%N (sys_start ex_own ex_own ex_info [] (t_default ex_own)) ex_talk = Some (y, h) /\
  y_sock y <> None /\ y_outs y = [] /\ asked KPing (ex_addr 1) [x01] h = 1 /\ replied KPing (ex_addr 1) [x01] h = 1 /\
  asked KFindNode (ex_addr 2) [x02] h = 1 /\ replied KFindNode (ex_addr 2) [x02] h = 1 /\ replied KFindNode (ex_addr 1) [x01] h = 0.
Proof. eexists _, _. split; [vm_compute; reflexivity|]. sp; try reflexivity; discriminate. Qed.

Print Assumptions C91_at_most_once.
Print Assumptions C91_ping_answered.
