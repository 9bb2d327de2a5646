(** Model of compact addresses, peer-wire messages, the TCP receive loop and
    the handshake:
    /repo/src/transcoding/mod.rs, src/peers/peer.rs,
    src/peers/connection/{message,connection_manager,handshake}.rs *)
From Coq Require Import List NArith ZArith Lia Bool Arith.
From Coq Require Import Strings.String.
From Verif Require Import Base IdModel.
Import ListNotations.
Set Implicit Arguments.
Local Open Scope list_scope.

(** ** Socket addresses *)
(** [SocketAddrV4]: four octets and a u16 port. *)
Record addr := mk_addr { ip0 : byte; ip1 : byte; ip2 : byte; ip3 : byte; port : N }.
Definition wf_addr (a : addr) : Prop := (port a < 65536)%N.
Definition addr_octets (a : addr) : bytes := [ip0 a; ip1 a; ip2 a; ip3 a].
Definition addr_eqb (a b : addr) : bool :=
  bytes_eqb (addr_octets a) (addr_octets b) && (port a =? port b)%N.
Definition COMPACT_SOCKADDR_LEN : nat := 6.

(** transcoding/mod.rs:8-20 *)
Definition socketaddr_from_compact_bytes (buf : bytes) : res addr :=
  match buf with
  | [a; b; c; d; e; f] => Val (mk_addr a b c d (N.lor (N.shiftl (b2n e) 8) (b2n f)))
  | _ => Fail
  end.
(** peer.rs:16-26 [Peer::from_compact_bytes] *)
Definition peer_from_compact_bytes (buf : bytes) : res addr :=
  if List.length buf =? COMPACT_SOCKADDR_LEN then socketaddr_from_compact_bytes buf else Fail.
(** peer.rs:33-46 [Serialize for Peer]: the bytes passed to [serialize_bytes];
    [as u8] truncates. *)
Definition peer_to_bytes (a : addr) : bytes :=
  addr_octets a ++ [n2b (N.shiftr (port a) 8); n2b (N.land (port a) 0xff)].
(** peer.rs:48-76 [Deserialize for Peer], [visit_bytes] *)
Definition peer_visit_bytes (v : bytes) : res addr :=
  if List.length v =? COMPACT_SOCKADDR_LEN then peer_from_compact_bytes v else Fail.
(** dht/routing_table/bucket.rs:177-193 [Node::from_compact_bytes] (id and
    address; [last_seen] is [None]). *)
Definition COMPACT_NODE_LEN : nat := 26.
Definition node_from_compact_bytes (buf : bytes) : res (ID * addr) :=
  if List.length buf =? COMPACT_NODE_LEN then
    rbind (socketaddr_from_compact_bytes (skipn ID_LEN buf)) (fun a => Val (firstn ID_LEN buf, a))
  else Fail.

(** ** Messages: message.rs:41-68 *)
Record request := mk_request { rq_index : N; rq_begin : N; rq_length : N }.
Record piece_msg := mk_piece { pm_index : N; pm_begin : N; pm_block : bytes }.
Inductive message :=
| KeepAlive | Choke | Unchoke | Interested | NotInterested
| Have (i : N) | Bitfield (b : bytes) | Request (r : request)
| Piece (p : piece_msg) | Cancel (r : request) | Port (p : N).

Definition u32 (n : N) : bytes := be_bytes 4 n.
Definition u16 (n : N) : bytes := be_bytes 2 n.
Definition u8c (n : N) : bytes := [n2b n].
(** [bytes.len() as u32] *)
Definition len_as_u32 (l : bytes) : N := (N.of_nat (List.length l) mod 2 ^ 32)%N.
(** derive(Serialize) for Request: the three fields in order. *)
Definition request_fields (r : request) : bytes := u32 (rq_index r) ++ u32 (rq_begin r) ++ u32 (rq_length r).

(** message.rs:146-236: bincode, big endian, fixed-width integers. The
    additions [1 + len as u32], [9 + len as u32] wrap in release builds. *)
Definition into_bytes (m : message) : bytes :=
  match m with
  | KeepAlive => u32 0
  | Choke => u32 1 ++ u8c 0
  | Unchoke => u32 1 ++ u8c 1
  | Interested => u32 1 ++ u8c 2
  | NotInterested => u32 1 ++ u8c 3
  | Have i => u32 5 ++ u8c 4 ++ u32 i
  | Bitfield b => u32 (1 + len_as_u32 b) ++ u8c 5 ++ b
  | Request r => u32 13 ++ u8c 6 ++ request_fields r
  | Piece p => u32 (9 + len_as_u32 (pm_block p)) ++ u8c 7 ++ u32 (pm_index p) ++ u32 (pm_begin p) ++ pm_block p
  | Cancel r => u32 13 ++ u8c 8 ++ request_fields r
  | Port p => u32 3 ++ u8c 9 ++ u16 p
  end.

(** message.rs:70-77 [u32_from_be_slice!(buf[off..])]: index panic when fewer
    than four bytes follow. *)
Definition u32_at (buf : bytes) (off : nat) : res N :=
  match slice buf off (off + 4) with Some l => Val (of_be l) | None => Panic end.
(** message.rs:80-82 *)
Definition message_len_field (buf : bytes) : res N := u32_at buf 0.

Definition parse_request (buf : bytes) : res request :=
  rbind (u32_at buf 5) (fun i => rbind (u32_at buf 9) (fun b => rbind (u32_at buf 13) (fun l =>
    Val (mk_request i b l)))).

(** message.rs:84-144. [None] covers "longer than the buffer" and
    "unsupported id". *)
Definition from_buf (buf : bytes) : res (option message) :=
  rbind (u32_at buf 0) (fun len32 =>
  let len := (len32 + 4)%N in
  if (N.of_nat (List.length buf) <? len)%N then Val None
  else if (len =? 4)%N then Val (Some KeepAlive)
  else
    match nth_error buf 4 with
    | None => Panic
    | Some id =>
      let n := N.to_nat len in
      match b2n id with
      | 0 => Val (Some Choke)
      | 1 => Val (Some Unchoke)
      | 2 => Val (Some Interested)
      | 3 => Val (Some NotInterested)
      | 4 => rbind (u32_at buf 5) (fun i => Val (Some (Have i)))
      | 5 => match slice buf 5 n with Some b => Val (Some (Bitfield b)) | None => Panic end
      | 6 => rbind (parse_request buf) (fun r => Val (Some (Request r)))
      | 7 => rbind (u32_at buf 5) (fun i => rbind (u32_at buf 9) (fun b =>
               match slice buf 13 n with
               | Some d => Val (Some (Piece (mk_piece i b d)))
               | None => Panic end))
      | 8 => rbind (parse_request buf) (fun r => Val (Some (Cancel r)))
      | 9 => match nth_error buf 5, nth_error buf 6 with
             | Some h, Some l => Val (Some (Port (N.shiftl (b2n h) 8 + b2n l)))
             | _, _ => Panic
             end
      | _ => Val None
      end%N
    end).

(** ** Receive loop: connection_manager.rs:18-21, 97-143 *)
Definition BLOCK_SIZE : nat := Nat.pow 2 14.
Definition DESCRIPTIVE_DATA_SIZE : nat := Nat.pow 2 7.
Definition MAX_MESSAGE_BYTES : nat := BLOCK_SIZE + DESCRIPTIVE_DATA_SIZE.

Record recv := mk_recv { rv_buf : bytes; rv_start : nat; rv_len : nat }.
(** connection_manager.rs:104-106 *)
Definition recv_init : recv := mk_recv (repeat x00 MAX_MESSAGE_BYTES) 0 0.

(** [buf.copy_within(a..b, 0)] *)
Definition copy_within_0 (buf : bytes) (a b : nat) : bytes :=
  firstn (b - a) (skipn a buf) ++ skipn (b - a) buf.

(** connection_manager.rs:117-141: the inner [while] loop; returns the new
    state and the messages handled, in order. [fuel] bounds the iterations
    (each consumes at least four bytes); exhausting it is [Fail]. *)
Fixpoint drain (fuel : nat) (s : recv) : res (recv * list message) :=
  match fuel with
  | O => Fail
  | S f =>
    if rv_len s <? 4 then Val (s, [])
    else
      rbind (u32_at (skipn (rv_start s) (rv_buf s)) 0) (fun len32 =>
      let message_len := (len32 + 4)%N in
      if (message_len <=? N.of_nat (rv_len s))%N then
        rbind (from_buf (rv_buf s)) (fun om =>
        match om with
        | None => Val (mk_recv (rv_buf s) 0 0, [])
        | Some m =>
          let ml := N.to_nat message_len in
          let start := rv_start s + ml in
          let len := rv_len s - ml in
          let buf := if 0 <? len then copy_within_0 (rv_buf s) start (start + len) else rv_buf s in
          rmap (fun p => (fst p, m :: snd p)) (drain f (mk_recv buf 0 len))
        end)
      else Val (s, []))
  end.

(** Free space offered to [stream.read]: [&mut buf[data_start + data_len..]]. *)
Definition recv_avail (s : recv) : nat := List.length (rv_buf s) - (rv_start s + rv_len s).

(** connection_manager.rs:108-116: a read that returned [chunk] (at most
    [recv_avail] bytes; empty = end of stream or empty slice), then the inner
    loop. *)
Definition recv_read (s : recv) (chunk : bytes) : res (recv * list message) :=
  let pos := rv_start s + rv_len s in
  let buf := firstn pos (rv_buf s) ++ chunk ++ skipn (pos + List.length chunk) (rv_buf s) in
  let len := rv_len s + List.length chunk in
  drain (S len) (mk_recv buf (rv_start s) len).

(** The whole receive task against a byte stream: the kernel decides how many
    bytes each read returns ([sizes], clamped to what is offered and to what is
    left). *)
Inductive recv_status := Running (s : recv) | Stopped.
Fixpoint recv_run (s : recv) (stream : bytes) (sizes : list nat) : res (recv * list message * bytes) :=
  match sizes with
  | [] => Val (s, [], stream)
  | k :: ks =>
    let n := Nat.min k (Nat.min (recv_avail s) (List.length stream)) in
    rbind (recv_read s (firstn n stream)) (fun p =>
    rmap (fun q => match q with (s', ms, rest) => (s', snd p ++ ms, rest) end)
         (recv_run (fst p) (skipn n stream) ks))
  end.

(** Result of one [stream.read(..).await]: [Ok(n)] with the bytes, or [Err]. *)
Inductive read_event := ReadOk (chunk : bytes) | ReadErr.
Definition recv_step (st : recv_status) (e : read_event) : res (recv_status * list message) :=
  match st with
  | Stopped => Val (Stopped, [])
  | Running s =>
    match e with
    | ReadErr => Val (Stopped, [])
    | ReadOk chunk => rmap (fun p => (Running (fst p), snd p)) (recv_read s chunk)
    end
  end.
Fixpoint recv_steps (st : recv_status) (es : list read_event) : res (recv_status * list message) :=
  match es with
  | [] => Val (st, [])
  | e :: es' =>
    rbind (recv_step st e) (fun p =>
    rmap (fun q => (fst q, snd p ++ snd q)) (recv_steps (fst p) es'))
  end.

(** ** Dispatch: connection_manager.rs:145-217 *)
Inductive con_message :=
| CUnreachable | CDisconnected | CKeepAlive | CChoke | CUnchoke | CInterested | CNotInterested
| CHave (i : N) | CBitfield (b : bytes) | CRequest (r : request)
| CFinishedPiece (idx : nat) (data : list bytes) | CCancel (r : request).
(** connection_manager.rs:197-217 *)
Definition con_of_message (m : message) : res con_message :=
  match m with
  | KeepAlive => Val CKeepAlive | Choke => Val CChoke | Unchoke => Val CUnchoke
  | Interested => Val CInterested | NotInterested => Val CNotInterested
  | Have v => Val (CHave v) | Bitfield v => Val (CBitfield v) | Request v => Val (CRequest v)
  | Piece _ => Fail | Cancel v => Val (CCancel v) | Port _ => Fail
  end.
(** Where a message is sent (the three channels). *)
Inductive delivery :=
| ToPiece (p : piece_msg)
| ToDht (a : addr)
| ToPeer (peer : addr) (m : con_message).
(** connection_manager.rs:145-173 *)
Definition handle_message (peer : addr) (m : message) : list delivery :=
  match m with
  | Piece p => [ToPiece p]
  | Port p => [ToDht (mk_addr (ip0 peer) (ip1 peer) (ip2 peer) (ip3 peer) p)]
  | _ => match con_of_message m with Val c => [ToPeer peer c] | _ => [] end
  end.

(** ** Handshake: handshake.rs *)
Definition PSTRLEN : N := 19.
Definition PSTR : bytes := list_byte_of_string "BitTorrent protocol".
Definition HANDSHAKE_LENGTH : nat := 68.
(** handshake.rs:33-58: [repr(C)] struct of byte arrays, viewed as bytes. *)
Definition handshake_bytes (info_hash peer_id : ID) : bytes :=
  [n2b PSTRLEN] ++ PSTR ++ [x00; x00; x00; x00; x00; x00; x00; x01] ++ info_hash ++ peer_id.
(** handshake.rs:60-77 *)
Definition check_validity (buf : bytes) : res unit :=
  if negb (List.length buf =? HANDSHAKE_LENGTH) then Fail
  else
    match nth_error buf 0, slice buf 1 20 with
    | Some l, Some p => if negb (b2n l =? PSTRLEN)%N || negb (bytes_eqb p PSTR) then Fail else Val tt
    | _, _ => Panic
    end.
(** handshake.rs:12-31: [reply] is what the single [read] into a 68-byte
    buffer returned. *)
Definition initiate_handshake (reply : bytes) : res unit :=
  if negb (List.length reply =? HANDSHAKE_LENGTH) then Fail
  else check_validity reply.
(** handshake.rs:22-23: one [read] of at most 68 bytes; the kernel returns
    between one and all of the bytes that the peer sent ([k] of them). *)
Definition initiate_handshake_tcp (sent : bytes) (k : nat) : res unit :=
  initiate_handshake (firstn (Nat.min k HANDSHAKE_LENGTH) sent).
