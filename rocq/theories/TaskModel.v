(** The DHT task with the start of the peer search
    (/repo/src/dht/dht_manager.rs:46-84, peer_fetcher.rs:30-52). *)
From Coq Require Import List NArith ZArith Lia Bool Arith Permutation.
From Coq Require Import Init.Byte.
From Verif Require Import Base Assoc IdModel WireModel TableModel PeersModel PeersSpec BencodeModel KrpcModel DhtModel DhtMgrModel FetchModel.
Import ListNotations.
Set Implicit Arguments.

(** peer_fetcher.rs:30-52; [None] is the [bail!]. *)
Definition spawn_fetcher (now : N) (info : ID) (tcp_port : N) (m : peers) (t : table) : res (option fetcher) :=
  rmap (option_map (fun l => f_start info tcp_port l m)) (get_closest_nodes now t info).
(** The task: its data and [spawn_peer_fetcher_when_at_least_one_node_is_good]
    (dht_manager.rs:49). *)
Record task := mk_task { k_mgr : dmgr; k_wait : bool }.
(** dht_manager.rs:51-83: one turn; [now], [now2], [now3] are the successive
    readings of the clock. The last component is the search that is started. *)
Definition turn (now now2 now3 : N) (pick : picker) (tcp_port : N) (k : task) (i : gin) : res (task * list to_con * option fetcher) :=
  rbind (gstep now pick (k_mgr k) i) (fun r : dmgr * list to_con =>
    let '(s, o) := r in
    if k_wait k && (0 <? count_good_nodes now2 (g_table s)) then
      rmap (fun f : option fetcher => (mk_task s (match f with Some _ => false | None => true end), o, f))
        (spawn_fetcher now3 (g_info s) tcp_port (g_peers s) (g_table s))
    else Val (mk_task s (k_wait k), o, None)).
