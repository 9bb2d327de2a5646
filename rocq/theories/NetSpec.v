(** Vocabulary for the properties of a network of clients. *)
From Coq Require Import List NArith Bool Arith.
From Coq Require Import Init.Byte.
From Verif Require Import Base IdModel WireModel TableModel DhtModel DhtMgrModel TaskModel DhtSysModel NetModel.
Import ListNotations.
Set Implicit Arguments.

(** The routing table of the client at an address, and the one it stored when it
    was shut down. *)
Definition table_at (n : net) (a : addr) : table := g_table (k_mgr (y_dht (h_sys (n_hosts n a)))).
Definition stored_at (n : net) (a : addr) : option table := y_stored (h_sys (n_hosts n a)).
(** The table gives every client it lists by address its own id. *)
Definition truthful (who : addr -> option client) (t : table) : Prop :=
  forall x c, In x (t_nodes t) -> who (n_addr x) = Some c -> n_id x = v_own c.
(** The table gives the id of a client no other address than the client's. *)
Definition unmistaken (who : addr -> option client) (t : table) : Prop :=
  forall x a c, In x (t_nodes t) -> who a = Some c -> n_id x = v_own c -> n_addr x = a.
(** The table lists nobody but clients, each with its own id. *)
Definition only_clients (who : addr -> option client) (t : table) : Prop :=
  forall x, In x (t_nodes t) -> exists c, who (n_addr x) = Some c /\ n_id x = v_own c.
Definition distinct_ids (who : addr -> option client) : Prop :=
  forall a b ca cb, who a = Some ca -> who b = Some cb -> v_own ca = v_own cb -> a = b.
(** The peers the client at [a] remembers for another torrent. *)
Definition remembers (n : net) (a : addr) (ih : ID) (p : addr) : Prop :=
  exists l, In (ih, l) (g_map (k_mgr (y_dht (h_sys (n_hosts n a))))) /\ In p l.
Definition ip_of (a : addr) : bytes := [ip0 a; ip1 a; ip2 a; ip3 a].
(** Nobody but the client at [a] sends from its IP address. *)
Definition alone (who : addr -> option client) (es : list nev) (a : addr) : Prop :=
  (forall b, ip_of b = ip_of a -> who b <> None -> b = a) /\
  (forall from to dg, In (NStranger from to dg) es -> ip_of from <> ip_of a).
