(** Vocabulary for the properties of the DHT as a whole: what was received and
    what was sent, and who waits for whom. *)
From Coq Require Import List NArith ZArith Lia Bool Arith.
From Coq Require Import Init.Byte.
From Verif Require Import Base IdModel WireModel TableModel PeersModel PeersSpec BencodeModel KrpcModel DhtModel DhtSpec DhtMgrModel FetchModel TaskModel DhtSysModel.
Import ListNotations.
Set Implicit Arguments.

(** What happened: every step with the datagrams sent in it. *)
Definition yhist := list (yev * list (addr * kmsg)).
Definition sent (h : yhist) : list (addr * kmsg) := flat_map snd h.
Definition kind_queried (a : args) : kind :=
  match a with APing _ => KPing | AFindNode _ _ => KFindNode | AGetPeers _ _ => KGetPeers | AAnnounce _ _ _ _ => KAnnounce end.
(** A query of kind [k] from [a] with transaction id [t] arrived. *)
Definition is_query (k : kind) (a : addr) (t : bytes) (e : yev) : bool :=
  match e with YIn a' (MQuery t' _ _ q) => kind_eqb (kind_queried q) k && addr_eqb a' a && bytes_eqb t' t | _ => false end.
(** A datagram answering such a query. *)
Definition is_reply (k : kind) (a : addr) (t : bytes) (d : addr * kmsg) : bool :=
  match d with (a', MResp t' _ r) => kind_eqb (kind_answered r) k && addr_eqb a' a && bytes_eqb t' t | _ => false end.
Definition asked (k : kind) (a : addr) (t : bytes) (h : yhist) : nat := length (filter (is_query k a t) (map fst h)).
Definition replied (k : kind) (a : addr) (t : bytes) (h : yhist) : nat := length (filter (is_reply k a t) (sent h)).

(** The DHT task has commands left to send. *)
Definition dht_sending (y : sys) : Prop := exists c l, y_phase y = PStart (c :: l) \/ y_phase y = PSend (c :: l).
(** The socket task is about to pass on a query or a response to the DHT task. *)
Definition for_dht (o : out) : bool :=
  match o with OFindNode _ _ _ | OGetPeers _ _ _ | ONewPeer _ _ => true | OResp req _ => req =? DHT | OSend _ _ => false end.
(** The DHT task waits for the socket task to take a command, and the socket
    task waits for the DHT task to take a query or a response. *)
Definition deadlocked (cap : caps) (y : sys) : Prop :=
  y_sock y <> None /\ dht_sending y /\ c_cmd cap <= length (y_cmd y) /\
  exists o os, y_outs y = o :: os /\
    ((exists r, o = OResp DHT r /\ c_rd cap <= length (y_rd y)) \/
     (for_dht o = true /\ (forall r, o <> OResp DHT r) /\ c_qry cap <= length (y_qry y))).
(** The socket task waits for the search to take a response. *)
Definition waits_for_search (cap : caps) (y : sys) : Prop :=
  y_sock y <> None /\ y_fet y <> None /\ c_rf cap <= length (y_rf y) /\ exists req r os, req <> DHT /\ y_outs y = OResp req r :: os.
(** The search is between two rounds. *)
Definition search_pausing (y : sys) : Prop := y_fout y = [] /\ exists f, y_fet y = Some f /\ fs_busy f = false.
