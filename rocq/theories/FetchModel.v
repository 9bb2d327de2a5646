(** Model of the search for peers in the DHT: /repo/src/dht/peer_fetcher.rs.
    Iterating over a [HashMap] gives its entries in the order of the list. *)
From Coq Require Import List NArith ZArith Lia Bool Arith.
From Coq Require Import Init.Byte.
From Verif Require Import Base Assoc IdModel WireModel TableModel PeersModel PeersSpec BencodeModel KrpcModel DhtModel DhtMgrModel.
Import ListNotations.
Set Implicit Arguments.

(** peer_fetcher.rs:24-26 *)
Definition ANNOUNCE_TO_N_TOP_NODES : nat := 16.
Definition ACTIVE_CLOSE_NODES_CAP_LOW : nat := 128.
Definition ACTIVE_CLOSE_NODES_CAP_HIGH : nat := 512.
(** peer_fetcher.rs:199-204 [NodeCloseToInfoHash] *)
Inductive fnode := FUnknown (id : ID) | FHasPeers (id : ID) (token : bytes) | FPeerless (id : ID) (token : bytes).
(** peer_fetcher.rs:220-234 *)
Definition f_id (n : fnode) : ID := match n with FUnknown i | FHasPeers i _ | FPeerless i _ => i end.
Definition f_token (n : fnode) : option bytes := match n with FUnknown _ => None | FHasPeers _ t | FPeerless _ t => Some t end.
(** peer_fetcher.rs:236-258 *)
Definition cmp_discriminant (a b : fnode) : comparison :=
  match a, b with
  | FHasPeers _ _, FPeerless _ _ => Lt
  | FHasPeers _ _, FUnknown _ => Lt
  | FPeerless _ _, FUnknown _ => Lt
  | FPeerless _ _, FHasPeers _ _ => Gt
  | FUnknown _, FHasPeers _ _ => Gt
  | FUnknown _, FPeerless _ _ => Gt
  | _, _ => Eq
  end.
(** peer_fetcher.rs:28 *)
Definition node_map := list (addr * fnode).
(** peer_fetcher.rs:165-181; [sort_by] is stable *)
Definition f_cmp (ih : ID) (a b : addr * fnode) : comparison :=
  match cmp_discriminant (snd a) (snd b) with
  | Eq => id_cmp (id_sub (f_id (snd a)) ih) (id_sub (f_id (snd b)) ih)
  | c => c
  end.
Definition get_sorted_nodes (m : node_map) (ih : ID) : list (addr * fnode) := sort_by (f_cmp ih) m.
(** peer_fetcher.rs:155-163 *)
Definition forget_far_nodes (m : node_map) (ih : ID) : node_map := firstn ACTIVE_CLOSE_NODES_CAP_LOW (get_sorted_nodes m ih).
(** peer_fetcher.rs:133-153 *)
Definition announce_peer (port : N) (ih : ID) (m : node_map) : list to_con :=
  map (fun at_ => CQuery (fst at_) (QAnnounce ih port (snd at_)))
    (firstn ANNOUNCE_TO_N_TOP_NODES
      (flat_map (fun e => match f_token (snd e) with Some t => [(fst e, t)] | None => [] end) (get_sorted_nodes m ih))).
(** peer_fetcher.rs:183-197 *)
Fixpoint new_nodes (ih : ID) (l : list node) (m : node_map) : node_map * list to_con :=
  match l with
  | [] => (m, [])
  | n :: l =>
    if mhas addr_eqb (n_addr n) m then new_nodes ih l m
    else let r := new_nodes ih l (mset addr_eqb (n_addr n) (FUnknown (n_id n)) m) in (fst r, CQuery (n_addr n) (QGetPeers ih) :: snd r)
  end.

(** The variables of [periodically_fetch_peers] (peer_fetcher.rs:54-74);
    [fs_busy]: within [fetch_peers]. The peer table is shared. *)
Record fetcher := mk_fet { fs_info : ID; fs_port : N; fs_nodes : node_map; fs_peers : peers; fs_busy : bool }.
(** peer_fetcher.rs:61-64: a later node replaces an earlier one at the same address *)
Definition f_start (ih : ID) (port : N) (nodes : list node) (m : peers) : fetcher :=
  mk_fet ih port (fold_left (fun a n => mset addr_eqb (n_addr n) (FUnknown (n_id n)) a) nodes []) m false.
(** A tick of the interval, a response, 3 seconds of silence; the last one is a
    use of the peer table by another task. *)
Inductive fev := FTick | FResp (r : from_resp) | FQuiet | FShared (o : qop).

Section fetch.
(** [usize::MAX] *)
Variable usize_max : nat.
(** peer_fetcher.rs:92-127 after [active_nodes.get_mut(&from)] succeeded; the
    flag tells whether the loop goes on. *)
Definition on_answer (s : fetcher) (old : fnode) (from : addr) (token : bytes) (v : von) : res (fetcher * bool * list to_con) :=
  let ih := fs_info s in
  let '(m, ps, q) :=
    match v with
    | VValues l => (mset addr_eqb from (FHasPeers (f_id old) token) (fs_nodes s), q_extend (fs_peers s) l, [])
    | VNodes n =>
      let r := new_nodes ih (nodes_list n) (mset addr_eqb from (FPeerless (f_id old) token) (fs_nodes s)) in
      (fst r, fs_peers s, snd r)
    end in
  if ACTIVE_CLOSE_NODES_CAP_HIGH <=? length m then
    rmap (fun r => (mk_fet ih (fs_port s) (forget_far_nodes m ih) (fst r) true, negb (snd r), q)) (q_enough usize_max ps)
  else Val (mk_fet ih (fs_port s) m ps true, true, q).
(** leaving [fetch_peers] (peer_fetcher.rs:72) *)
Definition end_round (s : fetcher) : fetcher * list to_con :=
  (mk_fet (fs_info s) (fs_port s) (fs_nodes s) (fs_peers s) false, announce_peer (fs_port s) (fs_info s) (fs_nodes s)).
(** peer_fetcher.rs:69-130; [Fail]: the event cannot happen in this state. *)
Definition fstep (s : fetcher) (e : fev) : res (fetcher * list to_con) :=
  match e, fs_busy s with
  | FTick, false =>
    Val (mk_fet (fs_info s) (fs_port s) (fs_nodes s) (fs_peers s) true, map (fun a => CQuery a (QGetPeers (fs_info s))) (keys (fs_nodes s)))
  | FTick, true => Fail
  | FQuiet, true => Val (end_round s)
  | FQuiet, false => Fail
  | FResp _, false => Fail
  | FResp (FGetPeers from token v), true =>
    match mget addr_eqb from (fs_nodes s) with
    | None => Val (s, [])
    | Some old =>
      rmap (fun r : fetcher * bool * list to_con => let '(s', go, q) := r in if go then (s', q) else let e := end_round s' in (fst e, q ++ snd e)) (on_answer s old from token v)
    end
  | FResp _, true => Val (s, [])
  | FShared o, _ => rmap (fun r => (mk_fet (fs_info s) (fs_port s) (fs_nodes s) (fst r) (fs_busy s), @nil to_con)) (q_step (fs_peers s) o)
  end.
End fetch.
