(** Vocabulary for C92: queries the client sent, responses it received, and
    responses its tasks took. [true] stands for the DHT task, which pings and
    looks for nodes, [false] for the search, which looks for peers and announces. *)
From Coq Require Import List NArith Bool Arith.
From Coq Require Import Init.Byte.
From Verif Require Import Base IdModel WireModel TableModel PeersModel PeersSpec BencodeModel KrpcModel DhtModel DhtMgrModel FetchModel TaskModel DhtSysModel DhtSysSpec.
Import ListNotations.
Set Implicit Arguments.

(** Whose business a query or a response is. *)
Definition asks (a : args) : bool := match a with APing _ | AFindNode _ _ => true | AGetPeers _ _ | AAnnounce _ _ _ _ => false end.
Definition answers (r : resp) : bool := match r with RPing _ | RFindNode _ _ => true | RGetPeers _ _ _ | RAnnounce _ => false end.
(** A datagram sent is a query of that task. *)
Definition own_query (b : bool) (d : addr * kmsg) : bool := match d with (_, MQuery _ _ _ a) => Bool.eqb (asks a) b | _ => false end.
(** A response to such a query arrives. *)
Definition own_answer (b : bool) (e : yev) : bool := match e with YIn _ (MResp _ _ r) => Bool.eqb (answers r) b | _ => false end.
(** The task takes a response. *)
Definition takes (b : bool) (e : yev) : bool := match e with YTurn _ _ SResp => b | YAnswer => negb b | _ => false end.
Definition queries (b : bool) (h : yhist) : nat := length (filter (own_query b) (sent h)).
Definition answered (b : bool) (h : yhist) : nat := length (filter (own_answer b) (map fst h)).
Definition taken (b : bool) (h : yhist) : nat := length (filter (takes b) (map fst h)).
(** A search begins in this step. *)
Definition starts_search (y y' : sys) : Prop := y_fet y = None /\ y_fet y' <> None.
