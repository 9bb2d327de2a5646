(** C125 to C127: what the clients of a network know about each other is true. *)
From Coq Require Import List NArith ZArith Lia Bool Arith.
From Coq Require Import Init.Byte.
From Verif Require Import Base Assoc IdModel WireModel TableModel PeersModel PeersSpec PeersProofs BencodeModel KrpcModel DhtModel DhtMgrModel FetchModel TaskModel DhtSysModel NetModel NetSpec NetProofs.
Import ListNotations.
Set Implicit Arguments.

(** In a network of any number of clients and strangers, whatever is lost,
    delayed, repeated or sent by strangers: if the tables the clients start with
    give each client its own id, so do the tables they come to have, and those
    they store when they are shut down. *)
Theorem C125_own_id : forall sha who es n, (forall a c, who a = Some c -> truthful who (v_table c)) ->
  nrun sha who (net_start who) es = Some n ->
  forall a c, who a = Some c -> truthful who (table_at n a) /\ forall t, stored_at n a = Some t -> truthful who t.
Proof.
  intros sha who es n T H a c W. set (G := fun (id : ID) (x : addr) => forall c, who x = Some c -> id = v_own c).
  assert (TG : forall t, truthful who t <-> all_pairs G t). { intro t. split; [intros X x I c' W'; apply (X x c' I W')|intros X x c' I W'; apply (X x I c' W')]. }
  assert (N : ninv who G (fun _ _ => True) n).
  { eapply nrun_inv; [|apply start_inv|exact H|].
    - intros b cb Wb. split; [|exact Logic.I]. intros c' W'. congruence.
    - intros b cb Wb. apply TG. eauto.
    - intros from to dg _ W'. split; [|auto]. intros id c' W''. congruence. }
  destruct N as (N1 & _). destruct (N1 _ _ W) as (R & _). split; [apply TG; apply (tr_table R)|]. intros t E. apply TG. apply (tr_stored R). exact E.
Qed.

(** A client whose IP address nobody else sends from is remembered by others only
    as a peer of its own torrent, at its own TCP port (the torrent of the one who
    remembers left aside: those peers come from trackers and other tasks too). *)
Theorem C126_own_torrent : forall sha who es n a c b cb ih p,
  nrun sha who (net_start who) es = Some n -> who a = Some c -> alone who es a -> who b = Some cb ->
  remembers n b ih p -> ih <> v_info cb -> ip_of p = ip_of a ->
  ih = v_info c /\ p = mk_addr (ip0 a) (ip1 a) (ip2 a) (ip3 a) (v_tcp c).
Proof.
  intros sha who es n a c b cb ih p H W (L1 & L2) Wb (l & R1 & R2) NE EQ.
  set (P := fun (p : addr) (ih : ID) => ip_of p = ip_of a -> ih = v_info c /\ p = mk_addr (ip0 a) (ip1 a) (ip2 a) (ip3 a) (v_tcp c)).
  assert (N : ninv who (fun _ _ => True) P n).
  { eapply nrun_inv; [|apply start_inv|exact H|].
    - intros x cx Wx. split; [exact Logic.I|]. intro E. assert (X : x = a) by (apply L1; [exact E|congruence]). subst x. rewrite W in Wx. injection Wx as <-. auto.
    - intros x cx Wx y I. exact Logic.I.
    - intros from to dg I W'. split; [auto|]. intros q i E. destruct (L2 _ _ _ I E). }
  destruct N as (N1 & _). destruct (N1 _ _ Wb) as (R & _). destruct (tr_map R _ _ _ R1 R2) as [X|X]; [destruct (NE X)|apply X; exact EQ].
Qed.

(** ** an example: three clients and a stranger *)
Definition addr_a : addr := mk_addr x01 x01 x01 x01 7001.
Definition addr_b : addr := mk_addr x02 x02 x02 x02 7002.
Definition addr_c : addr := mk_addr x03 x03 x03 x03 7003.
Definition addr_x : addr := mk_addr x09 x09 x09 x09 7009.
Definition cl (b ih : byte) (p : N) : client := mk_client (repeat b 20) (repeat b 20) (repeat ih 20) p [] (t_default (repeat b 20)) CAPS 1000.
Definition ex_who (a : addr) : option client :=
  if addr_eqb a addr_a then Some (cl xaa x11 6001) else if addr_eqb a addr_b then Some (cl xbb x22 6002) else if addr_eqb a addr_c then Some (cl xcc x11 6003) else None.
Definition ex_sha (s : bytes) : bytes := firstn 20 (rev s ++ repeat x00 20).
Definition pk : picker := fun n l => firstn n l.
(** [a] is told of [b]'s port, pings it, gets the answer. *)
Definition meet (a b : addr) (k : nat) (t : byte) : list nev :=
  [NDo a (YPort b); NDo a (YTurn 0 pk SPort); NDo a YSend; NDo a (YCheck 0 0); NDo a (YCmd [t; t]); NDo a YOut;
   NGet k; NDo b YOut; NGet (S k); NDo a YOut; NDo a (YTurn 0 pk SResp); NDo a (YCheck 1 1)].
(** [a]'s search asks [b] and gets the answer. *)
Definition search (a b : addr) (k : nat) (t : byte) : list nev :=
  [NDo a YTick; NDo a YFetSend; NDo a (YCmd [t; t]); NDo a YOut; NGet k; NDo b YOut; NDo b (YTurn 1 pk SQuery); NDo b YSend; NDo b (YCheck 1 1); NDo b (YCmd []); NDo b YOut;
   NGet (S k); NDo a YOut; NDo a YAnswer].
(** It announces itself there. *)
Definition announce (a b : addr) (k : nat) (t : byte) : list nev :=
  [NDo a YFetSend; NDo a (YCmd [t; x00]); NDo a YOut; NDo a YQuiet; NDo a YFetSend; NDo a (YCmd [t; t]); NDo a YOut;
   NGet (S k); NDo b YOut; NDo b YOut; NDo b (YTurn 1 pk SQuery); NDo b (YCheck 1 1)].
Definition ex_run : list nev :=
  [NDo addr_a YSend; NDo addr_b YSend; NDo addr_c YSend; NStranger addr_x addr_b [x65]] ++
  meet addr_a addr_b 0 x61 ++ meet addr_b addr_a 2 x62 ++ search addr_a addr_b 4 x63 ++ announce addr_a addr_b 6 x64 ++
  meet addr_c addr_b 9 x65 ++ search addr_c addr_b 11 x66.
(** The first finds the second; the third finds the first through the second. *)
Definition ex_check (n : net) : bool :=
  existsb (fun x => id_eqb (n_id x) (repeat xbb 20) && addr_eqb (n_addr x) addr_b) (t_nodes (table_at n addr_a)) &&
  match mget bytes_eqb (repeat x11 20) (g_map (k_mgr (y_dht (h_sys (n_hosts n addr_b))))) with Some [p] => addr_eqb p (mk_addr x01 x01 x01 x01 6001) | _ => false end &&
  match y_peers (h_sys (n_hosts n addr_c)) with [(p, _)] => addr_eqb p (mk_addr x01 x01 x01 x01 6001) | _ => false end.
Lemma checked : forall o (f : net -> bool), match o with Some n => f n | None => false end = true -> exists n, o = Some n /\ f n = true.
Proof. intros [n|] f H; [eauto|discriminate]. Qed.
Lemma ex_ends : exists n, nrun ex_sha ex_who (net_start ex_who) ex_run = Some n /\ ex_check n = true.
Proof. apply checked. vm_compute. reflexivity. Qed.
Lemma one_list : forall (o : option (list addr)) q, match o with Some [p] => addr_eqb p q | _ => false end = true -> o = Some [q].
Proof. intros [[|p [|? ?]]|] q H; try discriminate. apply addr_eqb_spec in H. congruence. Qed.
Lemma one_peer : forall (l : peers) q, match l with [(p, _)] => addr_eqb p q | _ => false end = true -> In q (map fst l).
Proof. intros [|[p s] [|? ?]] q H; try discriminate. apply addr_eqb_spec in H. left. exact H. Qed.
Lemma ex_tables : forall a c, ex_who a = Some c -> truthful ex_who (v_table c).
Proof.
  intros a c W. assert (X : t_nodes (v_table c) = []). { unfold ex_who in W. repeat (destruct (addr_eqb _ _) in W; [injection W as <-; vm_compute; reflexivity|]). discriminate. }
  intros x c' I. rewrite X in I. destruct I.
Qed.
Lemma ex_alone : alone ex_who ex_run addr_a.
Proof.
  split.
  - intros b E W. unfold ex_who in W. destruct (addr_eqb b addr_a) eqn:E1; [apply addr_eqb_spec; exact E1|].
    destruct (addr_eqb b addr_b) eqn:E2; [apply addr_eqb_spec in E2; subst b; discriminate E|]. destruct (addr_eqb b addr_c) eqn:E3; [apply addr_eqb_spec in E3; subst b; discriminate E|]. congruence.
  - intros from to dg I. assert (F : from = addr_x). { unfold ex_run, meet, search, announce in I. cbn [app] in I. repeat (destruct I as [I|I]; [first [discriminate I|injection I as <- _ _; reflexivity]|]). destruct I. }
    subst from. discriminate.
Qed.
Example C125_example : (forall a c, ex_who a = Some c -> truthful ex_who (v_table c)) /\
  exists n x, nrun ex_sha ex_who (net_start ex_who) ex_run = Some n /\ In x (t_nodes (table_at n addr_a)) /\ n_addr x = addr_b /\ n_id x = repeat xbb 20.
Proof.
  split; [exact ex_tables|]. destruct ex_ends as (n & R & E). exists n. unfold ex_check in E. apply andb_true_iff in E. destruct E as (E & _). apply andb_true_iff in E. destruct E as (E & _).
  apply existsb_exists in E. destruct E as (x & I & E). apply andb_true_iff in E. destruct E as (E1 & E2). exists x. split; [exact R|]. split; [exact I|]. split; [apply addr_eqb_spec; exact E2|apply bytes_eqb_eq; exact E1].
Qed.
Example C126_example : alone ex_who ex_run addr_a /\
  exists n, nrun ex_sha ex_who (net_start ex_who) ex_run = Some n /\ remembers n addr_b (repeat x11 20) (mk_addr x01 x01 x01 x01 6001) /\
    repeat x11 20 <> v_info (cl xbb x22 6002) /\ In (mk_addr x01 x01 x01 x01 6001) (map fst (y_peers (h_sys (n_hosts n addr_c)))).
Proof.
  split; [exact ex_alone|]. destruct ex_ends as (n & R & E). exists n. unfold ex_check in E. apply andb_true_iff in E. destruct E as (E & E3). apply andb_true_iff in E. destruct E as (_ & E2).
  split; [exact R|]. split; [|split; [discriminate|]].
  - apply one_list in E2. eexists. split; [eapply mget_in; [exact bytes_eqb_eq|exact E2]|left; reflexivity].
  - apply one_peer in E3. exact E3.
Qed.

(** The other way round, nothing protects the id of a client: a stranger who is
    asked answers with it, and is filed under it. *)
Definition C127_own_address (sha : bytes -> bytes) (who : addr -> option client) : Prop :=
  forall es n, (forall a c, who a = Some c -> truthful who (v_table c) /\ unmistaken who (v_table c)) ->
  nrun sha who (net_start who) es = Some n -> forall a c, who a = Some c -> unmistaken who (table_at n a).
Definition ex_theft : list nev :=
  [NDo addr_a YSend; NDo addr_a (YPort addr_x); NDo addr_a (YTurn 0 pk SPort); NDo addr_a YSend; NDo addr_a (YCheck 0 0); NDo addr_a (YCmd [x61]); NDo addr_a YOut;
   NStranger addr_x addr_a (kmsg_bytes (ping_resp (repeat xbb 20) [x61])); NDo addr_a YOut; NDo addr_a (YTurn 0 pk SResp)].
Definition theft (n : net) : bool := existsb (fun x => id_eqb (n_id x) (repeat xbb 20) && addr_eqb (n_addr x) addr_x) (t_nodes (table_at n addr_a)).
Lemma ex_thefts : exists n, nrun ex_sha ex_who (net_start ex_who) ex_theft = Some n /\ theft n = true.
Proof. apply checked. vm_compute. reflexivity. Qed.
Theorem C127_own_address_refuted : ~ C127_own_address ex_sha ex_who.
Proof.
  intro C. destruct ex_thefts as (n & R & E). unfold theft in E. apply existsb_exists in E. destruct E as (x & I & E). apply andb_true_iff in E. destruct E as (E1 & E2).
  apply bytes_eqb_eq in E1. apply addr_eqb_spec in E2.
  assert (X : n_addr x = addr_b); [|rewrite E2 in X; discriminate].
  eapply (C _ _ ltac:(idtac) R addr_a (cl xaa x11 6001) eq_refl x addr_b (cl xbb x22 6002)); [exact I|reflexivity|exact E1].
  Unshelve. intros a c W. split; [exact (ex_tables _ W)|].
  assert (X : t_nodes (v_table c) = []). { unfold ex_who in W. repeat (destruct (addr_eqb _ _) in W; [injection W as <-; vm_compute; reflexivity|]). discriminate. }
  intros y b c' J. rewrite X in J. destruct J.
Qed.

(** Only strangers can be: if no two clients have the same id, an entry with the id
    of a client has the client's address or that of a stranger. *)
Theorem C127_strangers_only_partial : forall sha who es n, (forall a c, who a = Some c -> truthful who (v_table c)) -> distinct_ids who ->
  nrun sha who (net_start who) es = Some n ->
  forall a c b cb x, who a = Some c -> who b = Some cb -> In x (t_nodes (table_at n a)) -> n_id x = v_own cb -> n_addr x = b \/ who (n_addr x) = None.
Proof.
  intros sha who es n T D H a c b cb x W Wb I E. destruct (who (n_addr x)) as [cx|] eqn:Wx; [|right; reflexivity]. left.
  destruct (@C125_own_id sha who es n T H a c W) as (X & _). eapply D; [exact Wx|exact Wb|]. rewrite <- E. symmetry. apply (X x cx I Wx).
Qed.
(** Among clients alone, with tables that list only clients, there is no mistake
    at all: every entry is a client with its own id and its own address. *)
Theorem C127_among_clients_partial : forall sha who es n, (forall a c, who a = Some c -> only_clients who (v_table c)) ->
  (forall from to dg, ~ In (NStranger from to dg) es) -> nrun sha who (net_start who) es = Some n ->
  forall a c, who a = Some c -> only_clients who (table_at n a) /\ (distinct_ids who -> unmistaken who (table_at n a)).
Proof.
  intros sha who es n T S H a c W. set (G := fun (id : ID) (x : addr) => exists c, who x = Some c /\ id = v_own c).
  assert (N : ninv who G (fun _ _ => True) n).
  { eapply nrun_inv; [|apply start_inv|exact H|].
    - intros b cb Wb. split; [|exact Logic.I]. exists cb. auto.
    - intros b cb Wb. exact (T _ _ Wb).
    - intros from to dg I. destruct (S _ _ _ I). }
  destruct N as (N1 & _). destruct (N1 _ _ W) as (R & _). assert (X : only_clients who (table_at n a)) by (apply (tr_table R)). split; [exact X|].
  intros D x b cb I Wb E. destruct (X x I) as (cx & Wx & Ex). eapply D; [exact Wx|exact Wb|congruence].
Qed.
Definition ex_quiet : list nev := [NDo addr_a YSend; NDo addr_b YSend] ++ meet addr_a addr_b 0 x61.
Lemma ex_quiets : exists n, nrun ex_sha ex_who (net_start ex_who) ex_quiet = Some n /\
  existsb (fun x => id_eqb (n_id x) (repeat xbb 20) && addr_eqb (n_addr x) addr_b) (t_nodes (table_at n addr_a)) = true.
Proof. apply checked. vm_compute. reflexivity. Qed.
Lemma ex_distinct : distinct_ids ex_who.
Proof.
  intros a b ca cb. unfold ex_who.
  destruct (addr_eqb a addr_a) eqn:A1; [|destruct (addr_eqb a addr_b) eqn:A2; [|destruct (addr_eqb a addr_c) eqn:A3; [|discriminate]]];
  (destruct (addr_eqb b addr_a) eqn:B1; [|destruct (addr_eqb b addr_b) eqn:B2; [|destruct (addr_eqb b addr_c) eqn:B3; [|discriminate]]]);
  intros EA EB; injection EA as <-; injection EB as <-; intro E; try discriminate E;
  repeat match goal with X : addr_eqb _ _ = true |- _ => apply addr_eqb_spec in X end; congruence.
Qed.
Example C127_example : distinct_ids ex_who /\ (forall a c, ex_who a = Some c -> only_clients ex_who (v_table c)) /\ (forall from to dg, ~ In (NStranger from to dg) ex_quiet) /\
  exists n x, nrun ex_sha ex_who (net_start ex_who) ex_quiet = Some n /\ In x (t_nodes (table_at n addr_a)) /\ n_id x = v_own (cl xbb x22 6002).
Proof.
  split; [exact ex_distinct|]. split; [|split].
  - intros a c W. assert (X : t_nodes (v_table c) = []). { unfold ex_who in W. repeat (destruct (addr_eqb _ _) in W; [injection W as <-; vm_compute; reflexivity|]). discriminate. }
    intros x I. rewrite X in I. destruct I.
  - intros from to dg I. unfold ex_quiet, meet in I. cbn [app] in I. repeat (destruct I as [I|I]; [discriminate I|]). destruct I.
  - destruct ex_quiets as (n & R & E). apply existsb_exists in E. destruct E as (x & I & E). apply andb_true_iff in E. destruct E as (E & _). apply bytes_eqb_eq in E. exists n, x. auto.
Qed.

Print Assumptions C127_strangers_only_partial.
Print Assumptions C127_among_clients_partial.
Print Assumptions C125_own_id.
Print Assumptions C126_own_torrent.
Print Assumptions C127_own_address_refuted.
