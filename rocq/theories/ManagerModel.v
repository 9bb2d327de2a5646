(** Model of /repo/src/torrent_manager.rs and of the part of
    /repo/src/peers/connection/connection_handle.rs it drives.
    Arithmetic on the [u16] availability counts is checked (debug build); the
    proofs show where no check can fire, so that release builds agree there. *)
From Coq Require Import List NArith ZArith Lia Bool Arith.
From Verif Require Import Base Assoc BitmapModel IdModel WireModel PeersModel.
Import ListNotations.
Set Implicit Arguments.

(** torrent_manager.rs:20-23 *)
Definition MAX_ACTIVE_PEERS : nat := 10.
Definition MAX_ACTIVE_PIECES : nat := 9.
Definition MAX_PIECE_PER_PEER : nat := 4.
Definition MAX_PEER_PER_PIECE : nat := 3.

(** torrent_manager.rs:66-71 *)
Record pinfo := mk_pinfo { pi_choking : bool; pi_interested : bool; pi_haves : bitmap; pi_working : bitmap }.
(** torrent_manager.rs:73-82 *)
Definition pi_new (n : nat) : res pinfo :=
  rbind (bm_new n) (fun b => Val (mk_pinfo true false b b)).
(** torrent_manager.rs:50-64; the order of [m_active] is the iteration order
    of the map. [m_hashes] is [metainfo.info.pieces]; [m_conn] are the keys of
    [connection.peers] (connection_handle.rs:23). [fs], [own_peer_id] are not
    used after construction. *)
Record mgr := mk_mgr {
  m_active : list (addr * pinfo);
  m_inactive : list (addr * status);
  m_local : bitmap;
  m_pieces : bitmap;
  m_freq : list N;
  m_assigned : list N;
  m_hashes : list ID;
  m_conn : list addr
}.
Definition with_active (m : mgr) a := mk_mgr a (m_inactive m) (m_local m) (m_pieces m) (m_freq m) (m_assigned m) (m_hashes m) (m_conn m).
Definition with_inactive (m : mgr) i := mk_mgr (m_active m) i (m_local m) (m_pieces m) (m_freq m) (m_assigned m) (m_hashes m) (m_conn m).
Definition with_pieces (m : mgr) b := mk_mgr (m_active m) (m_inactive m) (m_local m) b (m_freq m) (m_assigned m) (m_hashes m) (m_conn m).
Definition with_freq (m : mgr) f := mk_mgr (m_active m) (m_inactive m) (m_local m) (m_pieces m) f (m_assigned m) (m_hashes m) (m_conn m).
Definition with_conn (m : mgr) c := mk_mgr (m_active m) (m_inactive m) (m_local m) (m_pieces m) (m_freq m) (m_assigned m) (m_hashes m) c.
Definition aget := @mget addr pinfo addr_eqb.
Definition aset := @mset addr pinfo addr_eqb.
Definition adel := @mdel addr pinfo addr_eqb.

(** torrent_manager.rs:84-114; [count_pieces] is [pieces.len()]
    (metainfo.rs:79-81). *)
Definition m_init (hashes : list ID) : res mgr :=
  let n := length hashes in
  rbind (bm_new n) (fun b => Val (mk_mgr [] [] b b (repeat 0%N n) (repeat 0%N n) hashes [])).

(** What the manager does to the outside world. *)
Inductive mout :=
| OSpawn (p : addr)                        (* connection and downloader tasks started *)
| OStart (p : addr) (h : ID) (i : nat).    (* [StartPiece] handed to the downloader of [p] *)

(** connection_handle.rs:107-147: nothing happens for a known peer. *)
Definition c_connect (conn : list addr) (p : addr) : list addr * list mout :=
  if existsb (addr_eqb p) conn then (conn, []) else (p :: conn, [OSpawn p]).

(** torrent_manager.rs:144-149 *)
Fixpoint add_peers (m : mgr) (ps : list addr) : res (mgr * list mout) :=
  match ps with
  | [] => Val (m, [])
  | p :: t =>
    let c := c_connect (m_conn m) p in
    rbind (pi_new (bm_len (m_local m))) (fun i =>
      rmap (fun r => (fst r, snd c ++ snd r)) (add_peers (with_active (with_conn m (fst c)) (aset p i (m_active m))) t))
  end.
(** torrent_manager.rs:131-150; the table of peers is shared. *)
Definition m_refresh (m : mgr) (tab : peers) : res (mgr * peers * list mout) :=
  if MAX_ACTIVE_PEERS <? length (m_active m) then Panic
  else
    let free := MAX_ACTIVE_PEERS - length (m_active m) in
    if free =? 0 then Val (m, tab, [])
    else rbind (q_batch tab (m_inactive m) free) (fun r =>
      rmap (fun r2 => (fst r2, fst r, snd r2)) (add_peers (with_inactive m []) (snd r))).

(** torrent_manager.rs:246-254 *)
Fixpoint find_peer (ps : list (addr * pinfo)) (i : nat) (per_peer : nat) : res (option addr) :=
  match ps with
  | [] => Val None
  | (p, inf) :: t =>
    if pi_choking inf then find_peer t i per_peer
    else rbind (bm_get (pi_haves inf) i) (fun has =>
      if has && (bm_weight (pi_working inf) =? N.of_nat per_peer)%N then Val (Some p) else find_peer t i per_peer)
  end.
(** torrent_manager.rs:199-213: indices of missing pieces somebody has. *)
Fixpoint remaining_from (i : nat) (bs : list bool) (f a : list N) : list nat :=
  match bs, f, a with
  | b :: bs', x :: f', _ :: a' =>
    if negb b && (0 <? x)%N then i :: remaining_from (S i) bs' f' a' else remaining_from (S i) bs' f' a'
  | _, _, _ => []
  end.
Definition remaining (m : mgr) : res (list nat) :=
  rmap (fun bs => remaining_from 0 bs (m_freq m) (m_assigned m)) (bm_bits (m_local m)).
(** torrent_manager.rs:225-227 *)
Fixpoint first_with (assigned : list N) (count : nat) (l : list nat) : res (option nat) :=
  match l with
  | [] => Val None
  | i :: t => match nth_error assigned i with
    | None => Panic
    | Some c => if (c =? N.of_nat count)%N then Val (Some i) else first_with assigned count t
    end
  end.
(** torrent_manager.rs:224-243; [ks] are the remaining values of
    [iteration_count]. *)
Fixpoint sel_loop (m : mgr) (rem : list nat) (ks : list nat) : res (option (addr * nat)) :=
  match ks with
  | [] => Val None
  | k :: t =>
    rbind (first_with (m_assigned m) (k / MAX_PIECE_PER_PEER) rem) (fun x =>
      match x with
      | None => sel_loop m rem t
      | Some i => rbind (find_peer (m_active m) i (k mod MAX_PIECE_PER_PEER)) (fun p =>
          match p with Some q => Val (Some (q, i)) | None => sel_loop m rem t end)
      end)
  end.
(** torrent_manager.rs:215-244 *)
Definition sequential_select (m : mgr) : res (option (addr * nat)) :=
  rbind (remaining m) (fun rem => sel_loop m rem (seq 0 (MAX_PEER_PER_PIECE * MAX_PIECE_PER_PEER))).
(** torrent_manager.rs:186-194 *)
Definition select_piece (m : mgr) : res (option (addr * nat * ID)) :=
  rbind (sequential_select m) (fun r =>
    match r with
    | None => Val None
    | Some (p, i) => match nth_error (m_hashes m) i with Some h => Val (Some (p, i, h)) | None => Panic end
    end).

(** torrent_manager.rs:176-184 *)
Definition mark_ongoing (m : mgr) (p : addr) (i : nat) : res mgr :=
  rbind (match aget p (m_active m) with Some inf => Val inf | None => pi_new (bm_len (m_pieces m)) end) (fun inf =>
  rbind (bm_change (m_pieces m) i true) (fun rp =>
  rbind (bm_change (pi_working inf) i true) (fun rw =>
    Val (with_pieces (with_active m (aset p (mk_pinfo (pi_choking inf) (pi_interested inf) (pi_haves inf) (fst rw)) (m_active m))) (fst rp))))).
(** torrent_manager.rs:163-174 with connection_handle.rs:172-191. [sent] says
    whether the downloader still takes commands; the piece is also added to
    the shared set of pending pieces (PendingModel.v), ignoring errors. *)
Definition start_piece (m : mgr) (p : addr) (i : nat) (h : ID) (sent : bool) : res (mgr * list mout) :=
  if existsb (addr_eqb p) (m_conn m) && sent then rmap (fun m' => (m', [OStart p h i])) (mark_ongoing m p i)
  else Val (m, []).
(** torrent_manager.rs:152-161: [n] iterations left; [sent] by remaining
    iterations. *)
Fixpoint assign_loop (m : mgr) (sent : nat -> bool) (n : nat) : res (mgr * list mout) :=
  match n with
  | O => Val (m, [])
  | S k => rbind (select_piece m) (fun r =>
      match r with
      | None => Val (m, [])
      | Some (p, i, h) => rbind (start_piece m p i h (sent k)) (fun r1 =>
          rmap (fun r2 => (fst r2, snd r1 ++ snd r2)) (assign_loop (fst r1) sent k))
      end)
  end.
Definition m_assign (m : mgr) (sent : nat -> bool) : res (mgr * list mout) :=
  let w := N.to_nat (bm_weight (m_pieces m)) in
  if MAX_ACTIVE_PIECES <? w then Panic else assign_loop m sent (MAX_ACTIVE_PIECES - w).

(** [frequency_map[i] += 1] on [u16]s, torrent_manager.rs:287, 334. *)
Definition freq_inc (f : list N) (i : nat) : res (list N) :=
  match nth_error f i with
  | None => Panic
  | Some x => if (x + 1 <? 65536)%N then Val (upd f i (x + 1)%N) else Panic
  end.
(** torrent_manager.rs:306-310 *)
Fixpoint freq_dec (f : list N) (hs : list bool) : res (list N) :=
  match f, hs with
  | x :: f', h :: hs' =>
    if h then (if (x =? 0)%N then Panic else rmap (cons (x - 1)%N) (freq_dec f' hs'))
    else rmap (cons x) (freq_dec f' hs')
  | _, _ => Val f
  end.
(** torrent_manager.rs:332-336 *)
Fixpoint freq_add (f : list N) (i : nat) (hs : list bool) : res (list N) :=
  match hs with
  | [] => Val f
  | true :: t => rbind (freq_inc f i) (fun f' => freq_add f' (S i) t)
  | false :: t => freq_add f (S i) t
  end.

(** torrent_manager.rs:302-312 *)
Definition mark_inactive (m : mgr) (p : addr) (st : status) : res mgr :=
  match aget p (m_active m) with
  | None => Val m
  | Some inf =>
    rbind (bm_bits (pi_haves inf)) (fun hs =>
    rbind (freq_dec (m_freq m) hs) (fun f =>
      Val (with_freq (with_inactive (with_active m (adel p (m_active m))) (m_inactive m ++ [(p, st)])) f)))
  end.
(** torrent_manager.rs:314-337 *)
Definition accept_bitfield (m : mgr) (d : bytes) (p : addr) : res mgr :=
  match aget p (m_active m) with
  | None => Val m
  | Some inf =>
    if (0 <? bm_weight (pi_haves inf))%N then Val m
    else match bm_replace_data (pi_haves inf) d with
      | Fail => Val m
      | Panic => Panic
      | Val b =>
        rbind (bm_bits b) (fun hs =>
        rbind (freq_add (m_freq m) 0 hs) (fun f =>
          Val (with_freq (with_active m (aset p (mk_pinfo (pi_choking inf) (pi_interested inf) b (pi_working inf)) (m_active m))) f)))
      end
  end.
(** torrent_manager.rs:283-290 *)
Definition handle_have (m : mgr) (p : addr) (i : nat) : res mgr :=
  match aget p (m_active m) with
  | None => Val m
  | Some inf =>
    rbind (bm_change (pi_haves inf) i true) (fun r =>
      let m' := with_active m (aset p (mk_pinfo (pi_choking inf) (pi_interested inf) (fst r) (pi_working inf)) (m_active m)) in
      if snd r then Val m' else rmap (with_freq m') (freq_inc (m_freq m) i))
  end.
(** [entry(peer).and_modify(..)], torrent_manager.rs:264-282 *)
Definition modify (m : mgr) (p : addr) (f : pinfo -> pinfo) : mgr :=
  match aget p (m_active m) with None => m | Some inf => with_active m (aset p (f inf) (m_active m)) end.
Definition set_choking (b : bool) (i : pinfo) := mk_pinfo b (pi_interested i) (pi_haves i) (pi_working i).
Definition set_interested (b : bool) (i : pinfo) := mk_pinfo (pi_choking i) b (pi_haves i) (pi_working i).
(** torrent_manager.rs:256-300; [todo!()] panics. *)
Definition handle_message (m : mgr) (p : addr) (c : con_message) : res mgr :=
  match c with
  | CUnreachable => mark_inactive m p UnableToConnect
  | CDisconnected => mark_inactive m p Unknown
  | CKeepAlive => Val m
  | CChoke => Val (modify m p (set_choking true))
  | CUnchoke => Val (modify m p (set_choking false))
  | CInterested => Val (modify m p (set_interested true))
  | CNotInterested => Val (modify m p (set_interested false))
  | CHave i => handle_have m p (N.to_nat i)
  | CBitfield d => accept_bitfield m d p
  | CRequest _ => Panic
  | CFinishedPiece _ _ => Panic
  | CCancel _ => Panic
  end.
