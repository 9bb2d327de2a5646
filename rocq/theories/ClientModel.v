(** The client as a whole, /repo/src/main.rs:46-181: the torrent manager
    (ManagerModel.v), for every peer the task reading and writing its connection
    and the downloader, the DHT (DhtSysModel.v), one session per HTTP tracker
    (TrackerModel.v), and [main] waiting for Ctrl-C. They share the table of
    peers and are joined by channels. What the downloaders do is in ConnModel.v;
    here they only live or not. *)
From Coq Require Import List NArith ZArith Lia Bool Arith.
From Coq Require Import Init.Byte.
From Verif Require Import Base Assoc IdModel WireModel TableModel PeersModel PeersSpec BencodeModel TrackerModel ManagerModel KrpcModel DhtModel DhtMgrModel FetchModel TaskModel DhtSysModel.
Import ListNotations.
Set Implicit Arguments.

(** A peer that was connected to, connection_handle.rs:107-147: whether the
    connection task is still in the handshake, whether it lives, whether the
    downloader lives. *)
Record pcon := mk_pcon { pc_peer : addr; pc_shaking : bool; pc_con : bool; pc_dl : bool }.
(** [q_mgr = None]: the torrent manager panicked; with it went its ends of all
    channels. [q_rec]: messages on the way to it (connection_handle.rs:24, 17).
    [q_sig]: Ctrl-C was pressed. [q_exit]: [main] has returned. [q_poison]: a
    downloader panicked while it held the mutex around the pieces all downloaders
    and the manager share (ConnModel.v). The peer table all share is
    [y_peers (q_dht s)]. *)
Record client := mk_client {
  q_mgr : option mgr; q_rec : list (addr * con_message); q_cons : list pcon;
  q_dht : sys; q_trk : list tsession; q_sig : bool; q_exit : bool; q_poison : bool }.
(** connection_handle.rs:17 *)
Definition REC_CAP : nat := 32.

(** Any order of [l]: the elements numbered [ks] (each among those left) first. *)
Fixpoint reorder A (ks : list nat) (l : list A) : list A :=
  match ks with
  | [] => l
  | k :: ks => match nth_error l k with Some x => x :: reorder ks (firstn k l ++ skipn (S k) l) | None => reorder ks l end
  end.
(** What the outside sees: a connection attempt, a datagram, a tracker request. *)
Inductive cout := CConnect (p : addr) | CDatagram (a : addr) (m : kmsg) | CGet (a : announce).
(** What can happen:
    - [CTick sent]: the manager's interval, torrent_manager.rs:123-126 ([sent]: as
      in ManagerModel.m_assign);
    - [CTake]: the manager takes a message, 122;
    - [CShake i ok]: the handshake of connection [i] ends, connection_manager.rs:60-69;
    - [CRecv i m]: connection [i] takes a message from its peer, 145-173;
    - [CLost i]: reading from it fails, 109-112, or decoding panics (C14);
    - [CDl i]: its downloader finds one of its channels closed, downloader.rs:92-103;
      [CDlPanic i lock]: it panics for another reason (ConnModel.v), [lock]: while
      it holds the mutex; [CDone i idx d]: it
      reports a finished piece, 166-172 (when it does is in ConnModel.v);
    - [CSendEnd i]: the writing half finds its channel closed, connection_manager.rs:84-87;
    - [CDht e]: a step of the DHT; [CTrk i now e]: of tracker session [i];
    - [CSignal]: Ctrl-C; [CExit]: [main] has waited for all that hold a shutdown
      receiver, main.rs:169-180;
    - [CReorder]: the hash maps of active peers and of known peers are traversed in
      another order from now on. *)
Inductive cev :=
| CTick (sent : nat -> bool) | CTake
| CShake (i : nat) (ok : bool) | CRecv (i : nat) (m : message) | CLost (i : nat)
| CDl (i : nat) | CDlPanic (i : nat) (lock : bool) | CDone (i idx : nat) (d : list bytes) | CSendEnd (i : nat)
| CDht (e : yev) | CTrk (i : nat) (now : N) (e : tevent)
| CSignal | CExit | CReorder (ks ks' : list nat).

Section client.
Variable sha : bytes -> bytes.
Variable usize_max : nat.
Variable cap : caps.
Variable tcp_port : N.
Variable cfgs : list tracker_cfg.

(** The counter of main.rs:69, which the tracker sessions read: nothing else uses
    it. *)
Definition DOWNLOADED : N := 0.
(** tracker_manager.rs:30-53: a session that cannot be opened panics alone. *)
Definition open_trk (now : N) (c : tracker_cfg) : tsession :=
  match open_session c now DOWNLOADED with Val (s, _) => s | _ => mk_session Crashed (first_announce c 0) 0 now end.
(** main.rs:58-93 after the torrent was read and the ports were opened, with
    torrent_manager.rs:84-114; [fs_ok]: [FS::new] returned (fs/mod.rs:25-38). The
    DHT starts with the routing table [t]. *)
Definition client_start (own secret info : ID) (hashes : list ID) (fs_ok : bool) (t : table) (now : N) : client :=
  mk_client (if fs_ok then match m_init hashes with Val m => Some m | _ => None end else None)
    [] [] (sys_start own secret info [] t) (map (open_trk now) cfgs) false false false.

Definition with_mgr (s : client) (m : option mgr) : client := mk_client m (q_rec s) (q_cons s) (q_dht s) (q_trk s) (q_sig s) (q_exit s) (q_poison s).
Definition with_rec (s : client) (q : list (addr * con_message)) : client := mk_client (q_mgr s) q (q_cons s) (q_dht s) (q_trk s) (q_sig s) (q_exit s) (q_poison s).
Definition with_cons (s : client) (l : list pcon) : client := mk_client (q_mgr s) (q_rec s) l (q_dht s) (q_trk s) (q_sig s) (q_exit s) (q_poison s).
Definition with_sys (s : client) (y : sys) : client := mk_client (q_mgr s) (q_rec s) (q_cons s) y (q_trk s) (q_sig s) (q_exit s) (q_poison s).
Definition with_poison (s : client) (b : bool) : client := mk_client (q_mgr s) (q_rec s) (q_cons s) (q_dht s) (q_trk s) (q_sig s) (q_exit s) b.
Definition with_trk (s : client) (l : list tsession) : client := mk_client (q_mgr s) (q_rec s) (q_cons s) (q_dht s) l (q_sig s) (q_exit s) (q_poison s).

(** connection_handle.rs:127-147 *)
Definition spawn (o : mout) : list pcon := match o with OSpawn p => [mk_pcon p true true true] | OStart _ _ _ => [] end.
Definition told (o : mout) : list cout := match o with OSpawn p => [CConnect p] | OStart _ _ _ => [] end.
(** A piece handed to a downloader: the mutex is taken, connection_handle.rs:187,
    and taking a poisoned one panics. *)
Definition starts (o : mout) : bool := match o with OStart _ _ _ => true | OSpawn _ => false end.
(** Sending to the manager: an error that is ignored if it is gone
    (connection_manager.rs:62-67, 171), waiting if the channel is full. *)
Definition tell_mgr (s : client) (p : addr) (c : con_message) : option client :=
  match q_mgr s with
  | None => Some s
  | Some _ => if length (q_rec s) <? REC_CAP then Some (with_rec s (q_rec s ++ [(p, c)])) else None
  end.
(** connection_manager.rs:145-173. The downloader's blocks are in ConnModel.v. *)
Definition deliver (s : client) (d : delivery) : option client :=
  match d with
  | ToPiece _ => Some s
  | ToDht a => if dht_alive (q_dht s) then option_map (fun r => with_sys s (fst r)) (ystep sha usize_max cap tcp_port (q_dht s) (YPort a)) else Some s
  | ToPeer p c => tell_mgr s p c
  end.
Fixpoint deliver_all (s : client) (l : list delivery) : option client :=
  match l with [] => Some s | d :: l => match deliver s d with Some s' => deliver_all s' l | None => None end end.
(** Whether some task can still tell the DHT of a port: the manager and the
    connection tasks hold a sender (connection_handle.rs:26, 132). *)
Definition can_tell (s : client) : bool := match q_mgr s with Some _ => true | None => existsb pc_con (q_cons s) end.
(** Which steps of the DHT can happen now: ports come from connections
    ([CRecv]), the other uses of the peer table are [CTick] and [CTrk]. *)
Definition dht_ok (s : client) (e : yev) : bool :=
  match e with
  | YPort _ | YShared _ => false
  | YTurn _ _ SNoPeers => negb (can_tell s)
  | YTurn _ _ SShutdown => q_sig s
  | _ => true
  end.
Definition trk_over (s : tsession) : bool := match t_phase s with Ended | Crashed => true | _ => false end.
(** Nothing sends on the completion channel of main.rs:80. *)
Definition trk_ok (s : client) (e : tevent) : bool := match e with Completion => false | Shutdown => q_sig s | _ => true end.
Definition trk_out (o : tout) : list cout := match o with Get a => [CGet a] | Found _ => [] end.
Definition trk_found (m : peers) (o : tout) : peers := match o with Get _ => m | Found l => q_extend m l end.

(** One step and what the outside sees of it; [None]: cannot happen now. *)
Definition cstep (s : client) (e : cev) : option (client * list cout) :=
  if q_exit s then None else
  match e with
  | CTick sent =>
    match q_mgr s with
    | None => None
    | Some m =>
      match m_refresh m (y_peers (q_dht s)) with
      | Val (m1, tab, o1) =>
        let s1 := with_sys (with_cons s (q_cons s ++ flat_map spawn o1)) (with_peers (q_dht s) tab) in
        match m_assign m1 sent with
        | Val (m2, o2) => Some (with_mgr s1 (if q_poison s && existsb starts o2 then None else Some m2), flat_map told o1)
        | _ => Some (with_mgr s1 None, flat_map told o1)
        end
      | _ => Some (with_mgr s None, [])
      end
    end
  | CTake =>
    match q_mgr s, q_rec s with
    | Some m, (p, c) :: q => Some (with_mgr (with_rec s q) (match ManagerModel.handle_message m p c with Val m' => Some m' | _ => None end), [])
    | _, _ => None
    end
  | CShake i ok =>
    match nth_error (q_cons s) i with
    | Some x =>
      if pc_con x && pc_shaking x then
        if ok then Some (with_cons s (upd (q_cons s) i (mk_pcon (pc_peer x) false true (pc_dl x))), [])
        else option_map (fun s' => (with_cons s' (upd (q_cons s) i (mk_pcon (pc_peer x) true false (pc_dl x))), [])) (tell_mgr s (pc_peer x) CUnreachable)
      else None
    | None => None
    end
  | CRecv i m =>
    match nth_error (q_cons s) i with
    | Some x => if pc_con x && negb (pc_shaking x) then option_map (fun s' => (s', [])) (deliver_all s (WireModel.handle_message (pc_peer x) m)) else None
    | None => None
    end
  | CLost i =>
    match nth_error (q_cons s) i with
    | Some x => if pc_con x && negb (pc_shaking x) then Some (with_cons s (upd (q_cons s) i (mk_pcon (pc_peer x) false false (pc_dl x))), []) else None
    | None => None
    end
  | CDl i =>
    match nth_error (q_cons s) i with
    | Some x =>
      if pc_dl x && (negb (pc_con x) || match q_mgr s with None => true | Some _ => false end)
      then Some (with_cons s (upd (q_cons s) i (mk_pcon (pc_peer x) (pc_shaking x) (pc_con x) false)), []) else None
    | None => None
    end
  | CDlPanic i lock =>
    match nth_error (q_cons s) i with
    | Some x => if pc_dl x then Some (with_poison (with_cons s (upd (q_cons s) i (mk_pcon (pc_peer x) (pc_shaking x) (pc_con x) false))) (q_poison s || lock), []) else None
    | None => None
    end
  | CDone i idx d =>
    match nth_error (q_cons s) i with
    | Some x => if pc_dl x then option_map (fun s' => (s', [])) (tell_mgr s (pc_peer x) (CFinishedPiece idx d)) else None
    | None => None
    end
  | CSendEnd i =>
    match nth_error (q_cons s) i, q_mgr s with
    | Some x, None => if pc_con x && negb (pc_shaking x) && negb (pc_dl x) then Some (with_cons s (upd (q_cons s) i (mk_pcon (pc_peer x) false false false)), []) else None
    | _, _ => None
    end
  | CDht e =>
    if dht_ok s e then option_map (fun r => (with_sys s (fst r), map (fun d => CDatagram (fst d) (snd d)) (snd r))) (ystep sha usize_max cap tcp_port (q_dht s) e) else None
  | CTrk i now e =>
    match nth_error cfgs i, nth_error (q_trk s) i with
    | Some c, Some t =>
      if trk_ok s e then
        option_map (fun r => (with_sys (with_trk s (upd (q_trk s) i (fst r))) (with_peers (q_dht s) (fold_left trk_found (snd r) (y_peers (q_dht s)))), flat_map trk_out (snd r)))
          (session_step c t now DOWNLOADED e)
      else None
    | _, _ => None
    end
  | CSignal => if q_sig s then None else Some (mk_client (q_mgr s) (q_rec s) (q_cons s) (q_dht s) (q_trk s) true (q_exit s) (q_poison s), [])
  | CExit => if q_sig s && negb (dht_alive (q_dht s)) && forallb trk_over (q_trk s) then Some (mk_client (q_mgr s) (q_rec s) (q_cons s) (q_dht s) (q_trk s) true true (q_poison s), []) else None
  | CReorder ks ks' =>
    Some (with_sys (with_mgr s (option_map (fun m => with_active m (reorder ks (m_active m))) (q_mgr s))) (with_peers (q_dht s) (reorder ks' (y_peers (q_dht s)))), [])
  end.
(** A run: every step with what the outside saw. *)
Fixpoint crun (s : client) (es : list cev) : option (client * list (cev * list cout)) :=
  match es with
  | [] => Some (s, [])
  | e :: es =>
    match cstep s e with
    | Some (s1, o) => match crun s1 es with Some (s2, h) => Some (s2, (e, o) :: h) | None => None end
    | None => None
    end
  end.
End client.
