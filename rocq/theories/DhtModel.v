(** Model of the DHT socket task: /repo/src/dht/connection/pending.rs and
    connection_manager.rs. Channels are numbered; whether the receiving end of
    a channel still exists is chosen by the environment at every step. Sending
    on a full channel waits and is not modelled. *)
From Coq Require Import Strings.String.
From Coq Require Import List NArith ZArith Lia Bool Arith.
From Coq Require Import Init.Byte.
From Verif Require Import Base Assoc IdModel WireModel TableModel BencodeModel KrpcModel.
Import ListNotations.
Set Implicit Arguments.
Local Open Scope list_scope.

(** pending.rs:14-20 [RequestType] *)
Inductive kind := KPing | KFindNode | KGetPeers | KAnnounce.
Definition kind_eqb (a b : kind) : bool :=
  match a, b with
  | KPing, KPing | KFindNode, KFindNode | KGetPeers, KGetPeers | KAnnounce, KAnnounce => true
  | _, _ => false
  end.
(** pending.rs:43-56 *)
Definition kind_of_args (a : args) : kind :=
  match a with APing _ => KPing | AFindNode _ _ => KFindNode | AGetPeers _ _ => KGetPeers | AAnnounce _ _ _ _ => KAnnounce end.
Definition kind_of_msg (m : kmsg) : res kind :=
  match m with MQuery _ _ _ a => Val (kind_of_args a) | _ => Panic end.
(** pending.rs:58-67 *)
Definition kind_of_resp (r : resp) : kind :=
  match r with RPing _ => KPing | RFindNode _ _ => KFindNode | RGetPeers _ _ _ => KGetPeers | RAnnounce _ => KAnnounce end.
(** pending.rs:9-11: requests by transaction id *)
Definition pending := list (bytes * (kind * nat)).
(** pending.rs:27-36 *)
Definition pend_get (p : pending) (t : bytes) (k : kind) : pending * option nat :=
  match mget bytes_eqb t p with
  | Some (k', req) => if kind_eqb k' k then (mdel bytes_eqb t p, Some req) else (p, None)
  | None => (p, None)
  end.
(** pending.rs:38-40 *)
Definition pend_insert (p : pending) (t : bytes) (k : kind) (req : nat) : pending := mset bytes_eqb t (k, req) p.

(** connection_manager.rs:14-21; the socket and channels are not part of the state. *)
Record dcon := mk_dcon { d_own : ID; d_secret : ID; d_pending : pending }.
(** channel_message/from_connection.rs:20-35 [FromConResp] *)
Inductive from_resp :=
| FTouch (id : ID) (from : addr)
| FNewNodes (n : nodes) (from : addr) (id : ID)
| FGetPeers (from : addr) (token : bytes) (v : von).
(** Observable effects: datagrams, messages to the DHT task (from_connection.rs:13-18
    [FromConQuery]), messages to a requester. *)
Inductive out :=
| OSend (to : addr) (m : kmsg)
| OFindNode (target : ID) (from : addr) (t : bytes)
| OGetPeers (ih : ID) (from : addr) (t : bytes)
| ONewPeer (peer : addr) (ih : ID)
| OResp (req : nat) (r : from_resp).
(** channel_message/to_connection.rs:7-19 [ToCon] (with the transaction id drawn for a query)
    and received messages. *)
Inductive ev :=
| EQuery (req : nat) (target : addr) (q : to_query) (t : bytes)
| EReply (target : addr) (t : bytes) (r : to_resp)
| EIn (from : addr) (m : kmsg).
Record env := mk_env { e_listener : bool; e_alive : nat -> bool }.

Section conn.
(** openssl's SHA-1 *)
Variable sha : bytes -> bytes.
(** id.rs:127-132 and connection_manager.rs:83 *)
Definition token_for (s : dcon) (a : addr) : bytes := sha (d_secret s ++ addr_octets a).
(** connection_manager.rs:70-101 *)
Definition send_query (s : dcon) (req : nat) (target : addr) (q : to_query) (t : bytes) : res (dcon * list out) :=
  let m := query_message (d_own s) t q in
  rbind (kind_of_msg m) (fun k =>
    Val (mk_dcon (d_own s) (d_secret s) (pend_insert (d_pending s) (tid m) k req), [OSend target m])).
Definition send_reply (s : dcon) (target : addr) (t : bytes) (r : to_resp) : res (dcon * list out) :=
  Val (s, [OSend target (resp_message (d_own s) t (token_for s target) r)]).
(** [query_listener.send(..).await.unwrap()] *)
Definition to_listener (e : env) (s : dcon) (o : out) : res (dcon * list out) :=
  if e_listener e then Val (s, [o]) else Panic.
Definition set_port (a : addr) (p : N) : addr := mk_addr (ip0 a) (ip1 a) (ip2 a) (ip3 a) p.
(** connection_manager.rs:205-207 *)
Definition token_is_valid (s : dcon) (token : bytes) (from : addr) : bool := bytes_eqb token (token_for s from).
(** connection_manager.rs:133-203 *)
Definition handle_query (e : env) (s : dcon) (t : bytes) (a : args) (from : addr) : res (dcon * list out) :=
  match a with
  | APing _ => send_reply s from t PPing
  | AFindNode _ target => to_listener e s (OFindNode target from t)
  | AGetPeers _ ih => to_listener e s (OGetPeers ih from t)
  | AAnnounce _ ih p token =>
    if token_is_valid s token from then
      rbind (to_listener e s (ONewPeer (set_port from p) ih)) (fun so =>
      rbind (send_reply (fst so) from t PAnnounce) (fun so' => Val (fst so', snd so ++ snd so')))
    else Val (s, [])
  end.
(** connection_manager.rs:209-258 *)
Definition payload (r : resp) (from : addr) : from_resp :=
  match r with
  | RPing id => FTouch id from
  | RFindNode id n => FNewNodes n from id
  | RGetPeers _ token v => FGetPeers from token v
  | RAnnounce id => FTouch id from
  end.
Definition handle_resp (e : env) (s : dcon) (t : bytes) (r : resp) (from : addr) : res (dcon * list out) :=
  match pend_get (d_pending s) t (kind_of_resp r) with
  | (p, Some req) => if e_alive e req then Val (mk_dcon (d_own s) (d_secret s) p, [OResp req (payload r from)]) else Panic
  | (p, None) => Val (mk_dcon (d_own s) (d_secret s) p, [])
  end.
(** connection_manager.rs:117-130 *)
Definition dstep (e : env) (s : dcon) (x : ev) : res (dcon * list out) :=
  match x with
  | EQuery req target q t => send_query s req target q t
  | EReply target t r => send_reply s target t r
  | EIn from (MQuery t _ _ a) => handle_query e s t a from
  | EIn from (MResp t _ r) => handle_resp e s t r from
  | EIn from (MError _ _ _) => Val (s, [])
  end.

(** ** datagrams *)
(** connection_manager.rs:12, 55 *)
Definition BUF_LEN : nat := 2600.
Definition new_buf : bytes := repeat x00 BUF_LEN.
(** [recv_from]: the datagram overwrites the start of the buffer, a longer one
    is cut off. *)
Definition recv_into (buf dg : bytes) : bytes := firstn BUF_LEN dg ++ skipn (length dg) buf.
(** connection_manager.rs:59-62, 103-130: the whole buffer is decoded, not only
    the bytes received; [None] is an IPv6 sender. *)
Definition on_datagram (e : env) (s : dcon) (buf : bytes) (from : option addr) (dg : bytes) : res (dcon * bytes * list out) :=
  let buf := recv_into buf dg in
  match from with
  | None => Val (s, buf, [])
  | Some a =>
    match kmsg_from_bytes buf with
    | Panic => Panic
    | Fail => Val (s, buf, [])
    | Val m => rmap (fun so => (fst so, buf, snd so)) (dstep e s (EIn a m))
    end
  end.
End conn.
