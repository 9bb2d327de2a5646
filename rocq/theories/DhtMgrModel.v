(** Model of the DHT task: /repo/src/dht/dht_manager.rs. It talks to the socket
    task (DhtModel.v) over channels; what it sends there is the output of a
    step. Sending on a full channel waits, which is not modelled here. *)
From Coq Require Import List NArith ZArith Lia Bool Arith.
From Coq Require Import Init.Byte.
From Verif Require Import Base Assoc IdModel WireModel TableModel PeersModel PeersSpec BencodeModel KrpcModel DhtModel.
Import ListNotations.
Set Implicit Arguments.

(** connection_handle.rs:9 and peer.rs:6 *)
Definition DHT_MTU : nat := 1300.
Definition COMPACT_PEER_LEN : nat := 6.
(** dht_manager.rs:23 [PeerMap]; the sets are lists without duplicates *)
Definition peer_map := list (ID * list addr).
(** [HashSet::insert] *)
Definition set_add (p : addr) (l : list addr) : list addr := if existsb (addr_eqb p) l then l else p :: l.
(** The variables of [dht] (dht_manager.rs:30-49); [g_peers] is shared with
    other tasks. *)
Record dmgr := mk_dmgr { g_info : ID; g_peers : peers; g_map : peer_map; g_table : table }.
(** What arrives: queries (from_connection.rs:13-18), responses, a tick of the
    refresh interval with its draws, a peer with a DHT port; the last one is a
    use of the shared peer table by another task. *)
Inductive gin :=
| GFindNode (target : ID) (from : addr) (t : bytes)
| GGetPeers (ih : ID) (from : addr) (t : bytes)
| GNewPeer (p : addr) (ih : ID)
| GResp (r : from_resp)
| GRefresh (draws : list (list byte * list bool))
| GPort (a : addr)
| GShared (o : qop).
(** What is sent to the socket task (to_connection.rs:7-19) *)
Inductive to_con :=
| CQuery (target : addr) (q : to_query)
| CReply (target : addr) (t : bytes) (r : to_resp).

(** dht_manager.rs:39-40 *)
Definition g_start (info : ID) (m : peers) (t : table) : dmgr := mk_dmgr info m [(info, q_addresses m)] t.
(** dht_manager.rs:42-44 *)
Definition start_pings (t : table) : list to_con := map (fun n => CQuery (n_addr n) QPing) (t_nodes t).

(** [IteratorRandom::choose_multiple]: the choice made is a parameter. *)
Definition picker := nat -> list addr -> list addr.

(** dht_manager.rs:171-185 *)
Definition find_peers (pick : picker) (s : dmgr) (ih : ID) : res (peers * option (list addr)) :=
  if q_serve (g_info s) ih then q_good (g_peers s) (DHT_MTU / COMPACT_PEER_LEN)
  else Val (g_peers s, option_map (pick (DHT_MTU / COMPACT_PEER_LEN)) (mget bytes_eqb ih (g_map s))).
(** dht_manager.rs:187-203 *)
Definition store_new_peer (s : dmgr) (p : addr) (ih : ID) : dmgr :=
  if q_serve (g_info s) ih then mk_dmgr (g_info s) (q_insert (g_peers s) p) (g_map s) (g_table s)
  else mk_dmgr (g_info s) (g_peers s)
    (mset bytes_eqb ih (match mget bytes_eqb ih (g_map s) with Some l => set_add p l | None => [p] end) (g_map s)) (g_table s).
(** dht_manager.rs:134-145 *)
Definition on_find_node (now : N) (s : dmgr) (target : ID) (from : addr) (t : bytes) : res (dmgr * list to_con) :=
  rmap (fun o => (s, match o with Some n => [CReply from t (PFindNode n)] | None => [] end)) (find_node now (g_table s) target).
(** dht_manager.rs:147-169 *)
Definition on_get_peers (now : N) (pick : picker) (s : dmgr) (ih : ID) (from : addr) (t : bytes) : res (dmgr * list to_con) :=
  rbind (find_peers pick s ih) (fun r =>
    let s' := mk_dmgr (g_info s) (fst r) (g_map s) (g_table s) in
    match snd r with
    | Some l => Val (s', [CReply from t (PGetPeers (VValues l))])
    | None => rmap (fun o => (s', match o with Some n => [CReply from t (PGetPeers (VNodes n))] | None => [] end))
                (find_node now (g_table s) ih)
    end).
Definition set_table (s : dmgr) (t : table) : dmgr := mk_dmgr (g_info s) (g_peers s) (g_map s) t.
(** dht_manager.rs:222-237 *)
Fixpoint unknown_addrs (t : table) (l : list node) : res (list addr) :=
  match l with
  | [] => Val []
  | n :: l => rbind (contains_node t (n_id n)) (fun b => rmap (fun r => if b then r else n_addr n :: r) (unknown_addrs t l))
  end.
(** dht_manager.rs:205-220 *)
Definition on_resp (now : N) (s : dmgr) (r : from_resp) : res (dmgr * list to_con) :=
  match r with
  | FTouch id from => rmap (fun t => (set_table s t, [])) (touch_node now id from (g_table s))
  | FNewNodes n from id =>
    rbind (touch_node now id from (g_table s)) (fun t =>
      rmap (fun l => (set_table s t, map (fun a => CQuery a QPing) l)) (unknown_addrs t (nodes_list n)))
  | FGetPeers _ _ _ => Val (s, [])
  end.
(** dht_manager.rs:86-98 and table.rs:134-136 *)
Fixpoint find_nodes_for (now : N) (t : table) (ids : list ID) : res (list to_con) :=
  match ids with
  | [] => Val []
  | i :: ids => rbind (get_closest_nodes now t i) (fun o =>
      rmap (app (match o with Some (n :: _) => [CQuery (n_addr n) (QFindNode i)] | _ => [] end)) (find_nodes_for now t ids))
  end.
Definition refresh_table (now : N) (s : dmgr) (draws : list (list byte * list bool)) : res (dmgr * list to_con) :=
  rbind (iter_over_ids now (g_table s) draws) (fun ids => rmap (fun o => (s, o)) (find_nodes_for now (g_table s) ids)).
(** dht_manager.rs:51-83, one turn of the loop; shutdown only ends it. *)
Definition gstep (now : N) (pick : picker) (s : dmgr) (i : gin) : res (dmgr * list to_con) :=
  match i with
  | GFindNode target from t => on_find_node now s target from t
  | GGetPeers ih from t => on_get_peers now pick s ih from t
  | GNewPeer p ih => Val (store_new_peer s p ih, [])
  | GResp r => on_resp now s r
  | GRefresh draws => refresh_table now s draws
  | GPort a => Val (s, [CQuery a QPing])
  | GShared o => rmap (fun r => (mk_dmgr (g_info s) (fst r) (g_map s) (g_table s), [])) (q_step (g_peers s) o)
  end.
