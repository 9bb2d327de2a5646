(** The start of the program: /repo/src/main.rs:60-90, torrent_manager.rs:24-47
    and tracker_manager.rs:17-54, from the bytes of the torrent file. Printing,
    logging and reading the command line are left out; opening the ports
    (gateway_device.rs) is a parameter. *)
From Coq Require Import List NArith ZArith Lia Bool Arith.
From Coq Require Import Init.Byte.
From Verif Require Import Base IdModel WireModel TableModel BencodeModel KrpcModel TrackerModel MetainfoModel ManagerModel DhtModel DhtSysModel ClientModel.
Import ListNotations.
Set Implicit Arguments.

(** tracker_manager.rs:26-49: one session for each HTTP tracker; the UDP ones
    are left alone. *)
Definition cfg_of (t : torrent) (peer_id : ID) (tcp_port : N) (u : bytes) : tracker_cfg :=
  mk_cfg u (t_info_hash t) peer_id tcp_port (N.of_nat (count_pieces t)) (i_piece_length (t_info t)).
Definition cfgs_of (t : torrent) (peer_id : ID) (tcp_port : N) : list tracker_cfg := map (cfg_of t peer_id tcp_port) (http_trackers t).
(** The first request of a session, tracker_manager.rs:70-84. *)
Definition first_request (now : N) (c : tracker_cfg) : list cout :=
  match open_session c now DOWNLOADED with Val (_, o) => flat_map trk_out o | _ => [] end.

Section start.
Variable sha1 : bytes -> ID.
(** What is drawn or found at the start: our peer id (main.rs:60), the id of our
    DHT node with its table and secret (dht/mod.rs:16-26), whether the files can be
    made (fs/mod.rs:25-38), the time. *)
Record world := mk_world { w_peer_id : ID; w_own : ID; w_secret : ID; w_table : table; w_fs : bool; w_now : N }.
(** main.rs:60-90. [file]: what the named file holds, [None] if it cannot be
    read (the [unwrap] of line 65). [port]: the TCP port the gateway gave,
    [None] if there was none (line 67). The result is the client with the
    sessions it was given and the requests it made. *)
Definition main_start (w : world) (file : option bytes) (port : option N) : res (client * list tracker_cfg * list cout) :=
  match file with
  | None => Panic
  | Some s =>
    match torrent_from_buf sha1 s with
    | Val t =>
      match port with
      | None => Fail
      | Some p =>
        let cs := cfgs_of t (w_peer_id w) p in
        Val (client_start cs (w_own w) (w_secret w) (t_info_hash t) (i_pieces (t_info t)) (w_fs w) (w_table w) (w_now w), cs, flat_map (first_request (w_now w)) cs)
      end
    | _ => Panic
    end
  end.
End start.
