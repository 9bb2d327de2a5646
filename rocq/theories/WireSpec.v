(** Vocabulary for the peer-wire properties: the BEP-3 layout, written
    independently of [into_bytes] / [from_buf], and the byte stream of a
    sequence of messages. *)
From Coq Require Import List NArith ZArith Lia Bool Arith.
From Verif Require Import Base WireModel.
Import ListNotations.
Set Implicit Arguments.

(** Compact form of an address: octets, then the port in big endian. *)
Definition compact (a : addr) : bytes := [ip0 a; ip1 a; ip2 a; ip3 a] ++ be_bytes 2 (port a).

(** BEP-3 payload (id and fields) and frame. *)
Definition bep3_payload (m : message) : bytes :=
  match m with
  | KeepAlive => []
  | Choke => [x00] | Unchoke => [x01] | Interested => [x02] | NotInterested => [x03]
  | Have i => x04 :: be_bytes 4 i
  | Bitfield b => x05 :: b
  | Request r => x06 :: be_bytes 4 (rq_index r) ++ be_bytes 4 (rq_begin r) ++ be_bytes 4 (rq_length r)
  | Piece p => x07 :: be_bytes 4 (pm_index p) ++ be_bytes 4 (pm_begin p) ++ pm_block p
  | Cancel r => x08 :: be_bytes 4 (rq_index r) ++ be_bytes 4 (rq_begin r) ++ be_bytes 4 (rq_length r)
  | Port p => x09 :: be_bytes 2 p
  end.
Definition bep3_frame (m : message) : bytes :=
  be_bytes 4 (N.of_nat (length (bep3_payload m))) ++ bep3_payload m.
Definition u32_ok (n : N) : Prop := (n < 2 ^ 32)%N.
Definition wf_request (r : request) : Prop := u32_ok (rq_index r) /\ u32_ok (rq_begin r) /\ u32_ok (rq_length r).
(** Integers fit their wire width and the frame length fits 32 bits. *)
Definition wf_msg (m : message) : Prop :=
  u32_ok (N.of_nat (length (bep3_payload m))) /\
  match m with
  | Have i => u32_ok i
  | Request r | Cancel r => wf_request r
  | Piece p => u32_ok (pm_index p) /\ u32_ok (pm_begin p)
  | Port p => (p < 2 ^ 16)%N
  | _ => True
  end.


(** Bytes of a message sequence; unread bytes held by the receiver. *)
Definition enc := bep3_frame.
Definition stream_of (ms : list message) : bytes := flat_map enc ms.
Definition pending (s : recv) : bytes := firstn (rv_len s) (rv_buf s).

(** [p] does not contain the whole next message. *)
Definition incomplete (p : bytes) (todo : list message) : Prop :=
  match todo with [] => p = [] | m :: _ => length p < length (enc m) end.
Definition inv (cap : nat) (s : recv) : Prop :=
  length (rv_buf s) = cap /\ rv_start s = 0 /\ rv_len s <= cap.

Definition wf_stream (ms : list message) : Prop :=
  Forall wf_msg ms /\ Forall (fun m => length (bep3_frame m) <= MAX_MESSAGE_BYTES) ms.


(** A well-framed message with an id this client does not know (BEP-10 uses 20). *)
Definition unknown_frame (id : byte) (body : bytes) : bytes :=
  be_bytes 4 (N.of_nat (S (length body))) ++ id :: body.
Definition unknown_ok (id : byte) (body : bytes) : Prop :=
  (9 < b2n id)%N /\ u32_ok (N.of_nat (S (length body))).

(** Which messages belong to which consumer. *)
Definition piece_of (m : message) : list piece_msg := match m with Piece p => [p] | _ => [] end.
Definition port_of (m : message) : list N := match m with Port p => [p] | _ => [] end.
Definition other (m : message) : bool := match m with Piece _ | Port _ => false | _ => true end.
(** What reached each consumer. *)
Definition got_pieces (ds : list delivery) : list piece_msg :=
  flat_map (fun d => match d with ToPiece p => [p] | _ => [] end) ds.
Definition got_dht (ds : list delivery) : list addr :=
  flat_map (fun d => match d with ToDht a => [a] | _ => [] end) ds.
Definition got_peer (ds : list delivery) : list (addr * con_message) :=
  flat_map (fun d => match d with ToPeer a m => [(a, m)] | _ => [] end) ds.
(** Command [c] carries the same content as message [m]. *)
Definition same_content (m : message) (c : con_message) : Prop :=
  match m, c with
  | KeepAlive, CKeepAlive | Choke, CChoke | Unchoke, CUnchoke
  | Interested, CInterested | NotInterested, CNotInterested => True
  | Have i, CHave j => i = j
  | Bitfield b, CBitfield b' => b = b'
  | Request r, CRequest r' => r = r'
  | Cancel r, CCancel r' => r = r'
  | _, _ => False
  end.

(** BEP-3 handshake. *)
Definition bep3_handshake (reserved info_hash peer_id : bytes) : bytes :=
  x13 :: [x42; x69; x74; x54; x6f; x72; x72; x65; x6e; x74; x20; x70; x72; x6f; x74; x6f; x63; x6f; x6c]
  ++ reserved ++ info_hash ++ peer_id.
Definition reserved_dht : bytes := [x00; x00; x00; x00; x00; x00; x00; x01].

(** Messages delivered by a run and bytes of the stream not yet read. *)
Definition outcome (r : res (recv * list message * bytes)) : option (list message * bytes) :=
  match r with Val (_, d, rest) => Some (d, rest) | _ => None end.
