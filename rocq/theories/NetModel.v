(** A network of clients: any number of DHT parts (DhtSysModel.v), each at an
    address of its own, that exchange datagrams with each other and with
    strangers. The network may lose, delay, repeat and reorder datagrams; what it
    does not do is forge the address of one of the clients. *)
From Coq Require Import List NArith ZArith Lia Bool Arith.
From Coq Require Import Init.Byte.
From Verif Require Import Base Assoc IdModel WireModel TableModel PeersModel PeersSpec BencodeModel KrpcModel DhtModel DhtMgrModel FetchModel TaskModel DhtSysModel.
Import ListNotations.
Set Implicit Arguments.

(** What a client is started with (main.rs:47-88, dht/mod.rs:16-26): node id,
    secret, info hash, TCP port, the peers known, the stored table; and the
    capacities and word size of its build. *)
Record client := mk_client { v_own : ID; v_secret : ID; v_info : ID; v_tcp : N; v_peers : peers; v_table : table; v_caps : caps; v_max : nat }.
(** A running client: its tasks and the receive buffer of its socket task
    (connection_manager.rs:55), which is never cleared. *)
Record host := mk_host { h_sys : sys; h_buf : bytes }.
(** A datagram on its way. *)
Record dgram := mk_dgram { g_from : addr; g_to : addr; g_data : bytes }.
(** All clients, and all datagrams they ever sent: each may arrive any number of
    times, at any time, or never. *)
Record net := mk_net { n_hosts : addr -> host; n_air : list dgram }.

Definition host_start (c : client) : host :=
  mk_host (sys_start (v_own c) (v_secret c) (v_info c) (v_peers c) (v_table c)) new_buf.
(** What can happen: a client does something other than receiving; a datagram a
    client sent arrives; a datagram of a stranger arrives. *)
Inductive nev :=
| NDo (a : addr) (e : yev)
| NGet (k : nat)
| NStranger (from to : addr) (dg : bytes).

Section net.
Variable sha : bytes -> bytes.
(** Who is at an address; [None]: no client of this kind. *)
Variable who : addr -> option client.

(** connection_manager.rs:59-62, 103-130, when the socket task is ready to
    receive: the whole buffer is decoded. A panic in decoding ends the task. *)
Definition receive (c : client) (h : host) (from : addr) (dg : bytes) : option host :=
  match y_sock (h_sys h), y_outs (h_sys h) with
  | Some _, [] =>
    let buf := recv_into (h_buf h) dg in
    match kmsg_from_bytes buf with
    | Panic => Some (mk_host (with_sock (h_sys h) None []) buf)
    | Fail => Some (mk_host (h_sys h) buf)
    | Val m => option_map (fun r => mk_host (fst r) buf) (ystep sha (v_max c) (v_caps c) (v_tcp c) (h_sys h) (YIn from m))
    end
  | _, _ => None
  end.
Definition is_in (e : yev) : bool := match e with YIn _ _ => true | _ => false end.
Definition put_host (n : net) (a : addr) (h : host) (air : list dgram) : net :=
  mk_net (fun x => if addr_eqb x a then h else n_hosts n x) (n_air n ++ air).
Definition arrive (n : net) (from to : addr) (dg : bytes) : option net :=
  match who to with
  | Some c => option_map (fun h => put_host n to h []) (receive c (n_hosts n to) from dg)
  | None => None
  end.
(** [None]: cannot happen now. *)
Definition nstep (n : net) (e : nev) : option net :=
  match e with
  | NDo a e =>
    match who a with
    | Some c =>
      if is_in e then None else
      match ystep sha (v_max c) (v_caps c) (v_tcp c) (h_sys (n_hosts n a)) e with
      | Some (y, o) => Some (put_host n a (mk_host y (h_buf (n_hosts n a))) (map (fun d => mk_dgram a (fst d) (kmsg_bytes (snd d))) o))
      | None => None
      end
    | None => None
    end
  | NGet k => match nth_error (n_air n) k with Some d => arrive n (g_from d) (g_to d) (g_data d) | None => None end
  | NStranger from to dg => match who from with None => arrive n from to dg | Some _ => None end
  end.
Fixpoint nrun (n : net) (es : list nev) : option net :=
  match es with
  | [] => Some n
  | e :: es => match nstep n e with Some n1 => nrun n1 es | None => None end
  end.
(** All clients just started. *)
Definition net_start : net :=
  mk_net (fun a => match who a with Some c => host_start c | None => mk_host (sys_start [] [] [] [] (t_default [])) new_buf end) [].
End net.
