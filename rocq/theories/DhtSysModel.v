(** The DHT as a whole: the socket task (DhtModel.v), the DHT task (TaskModel.v)
    and the peer search (FetchModel.v) running side by side, joined by the bounded
    channels of /repo/src/dht/connection/connection_handle.rs:84-115 and
    main.rs:68. Sending on a full channel waits; while a task waits it does
    nothing else. Tasks run at speeds of their own. *)
From Coq Require Import List NArith ZArith Lia Bool Arith.
From Coq Require Import Init.Byte.
From Verif Require Import Base Assoc IdModel WireModel TableModel PeersModel PeersSpec BencodeModel KrpcModel DhtModel DhtMgrModel FetchModel TaskModel.
Import ListNotations.
Set Implicit Arguments.

(** The capacities: commands, queries, responses to the DHT task, responses to
    the search, peers with a DHT port. *)
Record caps := mk_caps { c_cmd : nat; c_qry : nat; c_rd : nat; c_rf : nat; c_port : nat }.
(** connection_handle.rs:97-99 (commands and responses [1 << 10], queries
    [1 << 8]), 86 (responses to a clone [1 << 6]), main.rs:68 ([1 << 5]) *)
Definition CAPS : caps := mk_caps (2 ^ 10) (2 ^ 8) (2 ^ 10) (2 ^ 6) (2 ^ 5).

(** Where the DHT task is: sending the pings of its start (dht_manager.rs:42-44),
    in [select!] (52-68), sending what a branch sends and then checking whether
    to start the search (70-83), or ended. *)
Inductive phase := PStart (l : list to_con) | PIdle | PSend (l : list to_con) | PGone.
(** The requesters: the response channels are told apart by number. *)
Definition DHT : nat := 0.
Definition FETCHER : nat := 1.
(** [y_sock = None]: the socket task ended or panicked. [y_outs]: what it still
    has to do for the message at hand. [y_fet = None]: no search yet, or ended.
    [y_peers] is the peer table all share. [y_stored]: the table written to disk
    at shutdown. *)
Record sys := mk_sys {
  y_sock : option dcon; y_outs : list out;
  y_cmd : list (nat * to_con); y_qry : list gin; y_rd : list from_resp; y_rf : list from_resp; y_port : list addr;
  y_dht : task; y_phase : phase;
  y_fet : option fetcher; y_fout : list to_con;
  y_peers : peers; y_stored : option table }.

(** dht/mod.rs:16-26, dht_manager.rs:39-49, connection_manager.rs:31-50 *)
Definition sys_start (own secret info : ID) (m : peers) (t : table) : sys :=
  mk_sys (Some (mk_dcon own secret [])) [] [] [] [] [] [] (mk_task (g_start info m t) true) (PStart (start_pings t)) None [] m None.

Definition dht_alive (y : sys) : bool := match y_phase y with PGone => false | _ => true end.
Definition with_sock (y : sys) (d : option dcon) (o : list out) : sys :=
  mk_sys d o (y_cmd y) (y_qry y) (y_rd y) (y_rf y) (y_port y) (y_dht y) (y_phase y) (y_fet y) (y_fout y) (y_peers y) (y_stored y).
Definition with_cmd (y : sys) (q : list (nat * to_con)) : sys :=
  mk_sys (y_sock y) (y_outs y) q (y_qry y) (y_rd y) (y_rf y) (y_port y) (y_dht y) (y_phase y) (y_fet y) (y_fout y) (y_peers y) (y_stored y).
Definition with_qry (y : sys) (q : list gin) : sys :=
  mk_sys (y_sock y) (y_outs y) (y_cmd y) q (y_rd y) (y_rf y) (y_port y) (y_dht y) (y_phase y) (y_fet y) (y_fout y) (y_peers y) (y_stored y).
Definition with_rd (y : sys) (q : list from_resp) : sys :=
  mk_sys (y_sock y) (y_outs y) (y_cmd y) (y_qry y) q (y_rf y) (y_port y) (y_dht y) (y_phase y) (y_fet y) (y_fout y) (y_peers y) (y_stored y).
Definition with_rf (y : sys) (q : list from_resp) : sys :=
  mk_sys (y_sock y) (y_outs y) (y_cmd y) (y_qry y) (y_rd y) q (y_port y) (y_dht y) (y_phase y) (y_fet y) (y_fout y) (y_peers y) (y_stored y).
Definition with_port (y : sys) (q : list addr) : sys :=
  mk_sys (y_sock y) (y_outs y) (y_cmd y) (y_qry y) (y_rd y) (y_rf y) q (y_dht y) (y_phase y) (y_fet y) (y_fout y) (y_peers y) (y_stored y).
Definition with_phase (y : sys) (p : phase) : sys :=
  mk_sys (y_sock y) (y_outs y) (y_cmd y) (y_qry y) (y_rd y) (y_rf y) (y_port y) (y_dht y) p (y_fet y) (y_fout y) (y_peers y) (y_stored y).
Definition with_dht (y : sys) (k : task) (p : phase) (m : peers) : sys :=
  mk_sys (y_sock y) (y_outs y) (y_cmd y) (y_qry y) (y_rd y) (y_rf y) (y_port y) k p (y_fet y) (y_fout y) m (y_stored y).
Definition with_fet (y : sys) (f : option fetcher) (o : list to_con) (m : peers) : sys :=
  mk_sys (y_sock y) (y_outs y) (y_cmd y) (y_qry y) (y_rd y) (y_rf y) (y_port y) (y_dht y) (y_phase y) f o m (y_stored y).
Definition with_peers (y : sys) (m : peers) : sys :=
  mk_sys (y_sock y) (y_outs y) (y_cmd y) (y_qry y) (y_rd y) (y_rf y) (y_port y) (y_dht y) (y_phase y) (y_fet y) (y_fout y) m (y_stored y).
Definition with_stored (y : sys) (t : table) : sys :=
  mk_sys (y_sock y) (y_outs y) (y_cmd y) (y_qry y) (y_rd y) (y_rf y) (y_port y) (y_dht y) (y_phase y) (y_fet y) (y_fout y) (y_peers y) (Some t).

(** What the DHT task takes in [select!] (dht_manager.rs:52-68); several can be
    ready at once, then any of them may be taken. [SNoPeers]: all tasks that could
    tell of a DHT port have ended (58). *)
Inductive source := SResp | SQuery | SPort | SNoPeers | STick (draws : list (list byte * list bool)) | SShutdown.
(** What can happen:
    - [YIn]: the socket task takes a message that arrived (connection_manager.rs:59-62;
      decoding is in DhtModel.v);
    - [YCmd t]: it takes a command, drawing transaction id [t] for a query (63-65);
    - [YOut]: it does the next thing for the message at hand;
    - [YSockErr]: reading the socket fails (60); [YNobody]: all senders of
      commands are gone (64);
    - [YTurn]: the DHT task takes a branch; [YSend]: it sends its next command;
      [YCheck]: it has sent all and looks whether to start the search;
    - [YFet]: the search goes on with a tick, the next response or silence;
      [YFetSend]: it sends its next command;
    - [YPort]: a connected peer told its DHT port; [YShared]: another task uses
      the peer table. *)
Inductive yev :=
| YIn (from : addr) (m : kmsg) | YCmd (t : bytes) | YOut | YSockErr | YNobody
| YTurn (now : N) (pick : picker) (s : source) | YSend | YCheck (now2 now3 : N)
| YTick | YAnswer | YQuiet | YFetSend
| YPort (a : addr) | YShared (o : qop).

Section sys.
Variable sha : bytes -> bytes.
Variable usize_max : nat.
Variable cap : caps.
Variable tcp_port : N.

(** In [dstep] all receivers are taken to be there; [YOut] looks. *)
Definition all_there : env := mk_env true (fun _ => true).
Definition after_sock (y : sys) (r : res (dcon * list out)) : sys :=
  match r with Val (d, o) => with_sock y (Some d) o | _ => with_sock y None [] end.
(** Passing something on over a channel: wait if it is full, panic (the
    [unwrap] in connection_manager.rs:161, 173, 191, 229, 235, 249, 255) if the
    receiver is gone. [None]: waits. *)
Definition hand_over {A} (alive : bool) (c : nat) (q : list A) (x : A) (y : sys) (k : list A -> sys) : option sys :=
  if alive then (if length q <? c then Some (k (q ++ [x])) else None) else Some (with_sock y None []).
Definition sock_out (y : sys) (d : dcon) (o : out) (os : list out) : option (sys * list (addr * kmsg)) :=
  let rest := with_sock y (Some d) os in
  match o with
  | OSend to m => Some (rest, [(to, m)])
  | OFindNode target from t => option_map (fun y => (y, [])) (hand_over (dht_alive y) (c_qry cap) (y_qry y) (GFindNode target from t) y (with_qry rest))
  | OGetPeers ih from t => option_map (fun y => (y, [])) (hand_over (dht_alive y) (c_qry cap) (y_qry y) (GGetPeers ih from t) y (with_qry rest))
  | ONewPeer p ih => option_map (fun y => (y, [])) (hand_over (dht_alive y) (c_qry cap) (y_qry y) (GNewPeer p ih) y (with_qry rest))
  | OResp req r =>
    option_map (fun y => (y, []))
      (if req =? DHT then hand_over (dht_alive y) (c_rd cap) (y_rd y) r y (with_rd rest)
       else hand_over (match y_fet y with Some _ => true | None => false end) (c_rf cap) (y_rf y) r y (with_rf rest))
  end.
(** The DHT task with the shared peers. *)
Definition mgr_of (y : sys) : dmgr := let s := k_mgr (y_dht y) in mk_dmgr (g_info s) (y_peers y) (g_map s) (g_table s).
(** dht_manager.rs:52-68 *)
Definition dht_turn (y : sys) (now : N) (pick : picker) (i : gin) : sys :=
  match gstep now pick (mgr_of y) i with
  | Val (s, o) => with_dht y (mk_task s (k_wait (y_dht y))) (PSend o) (g_peers s)
  | _ => with_phase y PGone
  end.
(** Sending a command: an error ends the sender when the socket task is gone
    ([?] in dht_manager.rs:43, 56-66 and peer_fetcher.rs:71-72); [None]: waits. *)
Definition send_cmd (y : sys) (req : nat) (c : to_con) : option sys :=
  if length (y_cmd y) <? c_cmd cap then Some (with_cmd y (y_cmd y ++ [(req, c)])) else None.
Definition sock_alive (y : sys) : bool := match y_sock y with Some _ => true | None => false end.
(** One step and the datagrams sent in it; [None]: cannot happen now. *)
Definition ystep (y : sys) (e : yev) : option (sys * list (addr * kmsg)) :=
  match e with
  | YIn from m =>
    match y_sock y, y_outs y with
    | Some d, [] => Some (after_sock y (dstep sha all_there d (EIn from m)), [])
    | _, _ => None
    end
  | YCmd t =>
    match y_sock y, y_outs y, y_cmd y with
    | Some d, [], (req, c) :: q =>
      let ev := match c with CQuery target qu => EQuery req target qu t | CReply target t' r => EReply target t' r end in
      Some (after_sock (with_cmd y q) (dstep sha all_there d ev), [])
    | _, _, _ => None
    end
  | YOut =>
    match y_sock y, y_outs y with
    | Some d, o :: os => sock_out y d o os
    | _, _ => None
    end
  | YSockErr => match y_sock y, y_outs y with Some _, [] => Some (with_sock y None [], []) | _, _ => None end
  | YNobody =>
    match y_sock y, y_outs y, y_cmd y, y_fet y with
    | Some _, [], [], None => if dht_alive y then None else Some (with_sock y None [], [])
    | _, _, _, _ => None
    end
  | YTurn now pick s =>
    match y_phase y with
    | PIdle =>
      match s with
      | SResp => match y_rd y with r :: q => Some (dht_turn (with_rd y q) now pick (GResp r), []) | [] => None end
      | SQuery =>
        match y_qry y with
        | i :: q => Some (dht_turn (with_qry y q) now pick i, [])
        | [] => if sock_alive y then None else Some (with_phase y PGone, []) (* ConDropped, connection_handle.rs:129-131 *)
        end
      | SPort => match y_port y with a :: q => Some (dht_turn (with_port y q) now pick (GPort a), []) | [] => None end
      | SNoPeers => match y_port y with [] => Some (with_phase y PGone, []) | _ => None end
      | STick draws => Some (dht_turn y now pick (GRefresh draws), [])
      | SShutdown => Some (with_phase (with_stored y (g_table (k_mgr (y_dht y)))) PGone, [])
      end
    | _ => None
    end
  | YSend =>
    match y_phase y with
    | PStart (c :: l) => if sock_alive y then option_map (fun y => (with_phase y (PStart l), [])) (send_cmd y DHT c) else Some (with_phase y PGone, [])
    | PStart [] => Some (with_phase y PIdle, [])
    | PSend (c :: l) => if sock_alive y then option_map (fun y => (with_phase y (PSend l), [])) (send_cmd y DHT c) else Some (with_phase y PGone, [])
    | _ => None
    end
  | YCheck now2 now3 => (* 70-83 *)
    match y_phase y with
    | PSend [] =>
      let k := y_dht y in
      if k_wait k && (0 <? count_good_nodes now2 (g_table (k_mgr k))) then
        match spawn_fetcher now3 (g_info (k_mgr k)) tcp_port (y_peers y) (g_table (k_mgr k)) with
        | Val (Some f) => Some (with_fet (with_dht y (mk_task (k_mgr k) false) PIdle (y_peers y)) (Some f) [] (y_peers y), [])
        | Val None => Some (with_phase y PIdle, [])
        | _ => Some (with_phase y PGone, [])
        end
      else Some (with_phase y PIdle, [])
    | _ => None
    end
  | YTick | YAnswer | YQuiet =>
    match y_fet y, y_fout y with
    | Some f, [] =>
      let go (y : sys) (e : fev) :=
        match fstep usize_max (mk_fet (fs_info f) (fs_port f) (fs_nodes f) (y_peers y) (fs_busy f)) e with
        | Val (f', o) => Some (with_fet y (Some f') o (fs_peers f'), [])
        | Fail => None
        | Panic => Some (with_fet y None [] (y_peers y), [])
        end in
      match e with
      | YTick => go y FTick
      | YQuiet => go y FQuiet
      | _ => match y_rf y with r :: q => go (with_rf y q) (FResp r) | [] => None end
      end
    | _, _ => None
    end
  | YFetSend =>
    match y_fet y, y_fout y with
    | Some f, c :: l =>
      if sock_alive y then option_map (fun y => (with_fet y (Some f) l (y_peers y), [])) (send_cmd y FETCHER c)
      else Some (with_fet y None [] (y_peers y), [])
    | _, _ => None
    end
  | YPort a => if dht_alive y && (length (y_port y) <? c_port cap) then Some (with_port y (y_port y ++ [a]), []) else None
  | YShared o => match q_step (y_peers y) o with Val (m, _) => Some (with_peers y m, []) | _ => None end
  end.
(** A run: every step with what it sent. *)
Fixpoint yrun (y : sys) (es : list yev) : option (sys * list (yev * list (addr * kmsg))) :=
  match es with
  | [] => Some (y, [])
  | e :: es =>
    match ystep y e with
    | Some (y1, o) => match yrun y1 es with Some (y2, h) => Some (y2, (e, o) :: h) | None => None end
    | None => None
    end
  end.
End sys.
