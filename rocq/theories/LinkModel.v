(** Model of one connection task from connect to end: handshake, writing half,
    reading half and shutdown, peers/connection/connection_manager.rs:48-143 and
    handshake.rs:12-31. The kernel decides how many bytes each read and write
    takes; deliveries to the other tasks happen at once (ClientModel.v has the
    waiting). The bound of the queue of outgoing messages is left out. *)
From Coq Require Import List NArith ZArith Lia Bool Arith.
From Verif Require Import Base IdModel WireModel.
Import ListNotations.
Set Implicit Arguments.

(** Where the task is: in [TcpStream::connect] (handshake.rs:17); writing its
    handshake with [rest] still to write (handshake.rs:20); in the single read
    (handshake.rs:23); in the [select!] (connection_manager.rs:72-76) with the
    state of the reading half and the rest of the message being written; ended. *)
Inductive lphase :=
| LConnect | LHello (rest : bytes) | LReply | LUp (r : recv) (cur : bytes) | LEnd.
Record link := mk_link { l_phase : lphase; l_queue : list message }.
Definition link_start : link := mk_link LConnect [].

(** - [EQueue m]: another task puts [m] into the channel [send_rx];
    - [EConnected], [EConnFail]: [connect] ends;
    - [EWrote k]: the kernel takes [k] bytes; [EWriteErr]: a write fails;
    - [ERead c]: a read returns [c]; [EReadErr]: it fails;
    - [ETake]: the writing half takes the next message (connection_manager.rs:84);
    - [EClosed]: it finds the channel closed and empty (connection_manager.rs:84-87);
    - [EShutdown]: the shutdown signal arrives (connection_manager.rs:73). *)
Inductive levent :=
| EQueue (m : message) | EConnected | EConnFail | EWrote (k : nat) | EWriteErr
| ERead (c : bytes) | EReadErr | ETake | EClosed | EShutdown.
(** Bytes handed to the kernel; messages handed to the other tasks. *)
Inductive loutput := OBytes (b : bytes) | ODeliver (d : delivery).

(** connection_manager.rs:59-68 *)
Definition unreachable (peer : addr) : list loutput := [ODeliver (ToPeer peer CUnreachable)].

Section Link.
Variables (info_hash peer_id : ID) (peer : addr).

(** [None]: the event cannot happen in this state. A panic of the reading half
    ends the task, which is spawned on its own (connection_manager.rs:33). *)
Definition link_step (s : link) (e : levent) : option (link * list loutput) :=
  let q := l_queue s in
  match l_phase s, e with
  | LEnd, _ => None
  | ph, EQueue m => Some (mk_link ph (q ++ [m]), [])
  (* handshake.rs:17-18 *)
  | LConnect, EConnected => Some (mk_link (LHello (handshake_bytes info_hash peer_id)) q, [])
  | LConnect, EConnFail => Some (mk_link LEnd q, unreachable peer)
  (* handshake.rs:20 *)
  | LHello rest, EWrote k =>
    if (1 <=? k) && (k <=? length rest) then
      Some (mk_link (if k =? length rest then LReply else LHello (skipn k rest)) q, [OBytes (firstn k rest)])
    else None
  | LHello _, EWriteErr => Some (mk_link LEnd q, unreachable peer)
  (* handshake.rs:22-30 *)
  | LReply, ERead c =>
    if length c <=? HANDSHAKE_LENGTH then
      match initiate_handshake c with
      | Val _ => Some (mk_link (LUp recv_init []) q, [])
      | Fail => Some (mk_link LEnd q, unreachable peer)
      | Panic => Some (mk_link LEnd q, [])
      end
    else None
  | LReply, EReadErr => Some (mk_link LEnd q, unreachable peer)
  (* connection_manager.rs:83-94 *)
  | LUp r [], ETake => match q with m :: q' => Some (mk_link (LUp r (into_bytes m)) q', []) | [] => None end
  | LUp _ [], EClosed => match q with [] => Some (mk_link LEnd [], []) | _ => None end
  | LUp r (b :: l), EWrote k =>
    if (1 <=? k) && (k <=? length (b :: l)) then
      Some (mk_link (LUp r (skipn k (b :: l))) q, [OBytes (firstn k (b :: l))])
    else None
  | LUp r (b :: l), EWriteErr => Some (mk_link (LUp r []) q, [])
  (* connection_manager.rs:108-143 *)
  | LUp r cur, ERead c =>
    if length c <=? recv_avail r then
      match recv_read r c with
      | Val (r', ms) => Some (mk_link (LUp r' cur) q, map ODeliver (flat_map (handle_message peer) ms))
      | _ => Some (mk_link LEnd q, [])
      end
    else None
  | LUp _ _, EReadErr => Some (mk_link LEnd q, [])
  (* connection_manager.rs:72-73 *)
  | LUp _ _, EShutdown => Some (mk_link LEnd q, [])
  | _, _ => None
  end.
(** A run and its trace, oldest event first. *)
Fixpoint link_run (s : link) (es : list levent) : option (link * list loutput) :=
  match es with
  | [] => Some (s, [])
  | e :: es' =>
    match link_step s e with
    | Some (s', o) => match link_run s' es' with Some (s2, o2) => Some (s2, o ++ o2) | None => None end
    | None => None
    end
  end.
End Link.
