(** Model of DHT messages (/repo/src/dht/krpc_message.rs) and of their
    construction (/repo/src/dht/connection/channel_message/to_connection.rs).

    serde's part is modelled as follows. A struct is written as a dictionary of
    its fields, which bendy sorts by key. An untagged enum is read by first
    reading the whole input into a generic value ([bval], all integers within
    i64/u64) and then trying the variants in order of declaration. A struct
    variant accepts only a dictionary; its entries are visited in order (bendy
    guarantees ascending keys), unknown keys are skipped, a field that does not
    parse stops the variant, and missing fields are reported after all entries
    were visited. *)
From Coq Require Import Strings.String.
From Coq Require Import List NArith ZArith Lia Bool Arith.
From Coq Require Import Init.Byte.
From Verif Require Import Base IdModel WireModel TableModel BencodeModel.
Import ListNotations.
Set Implicit Arguments.

Definition str (s : string) : bytes := list_byte_of_string s.

(** krpc_message.rs:89-93 [Error] *)
Inductive kerror := ECode (n : N) | EDesc (s : bytes).
(** krpc_message.rs:97-100 [ValuesOrNodes] *)
Inductive von := VValues (l : list addr) | VNodes (n : nodes).
(** krpc_message.rs:46-63 [Arguments] *)
Inductive args :=
| AAnnounce (id info_hash : ID) (port : N) (token : bytes)
| AFindNode (id target : ID)
| AGetPeers (id info_hash : ID)
| APing (id : ID).
(** krpc_message.rs:67-86 [Response] *)
Inductive resp :=
| RGetPeers (id : ID) (token : bytes) (v : von)
| RFindNode (id : ID) (n : nodes)
| RPing (id : ID)
| RAnnounce (id : ID).
(** krpc_message.rs:16-42 [Message]; the second field is [MessageType]. *)
Inductive kmsg :=
| MQuery (tid : bytes) (y : byte) (name : bytes) (a : args)
| MResp (tid : bytes) (y : byte) (r : resp)
| MError (tid : bytes) (y : byte) (e : list kerror).

(** krpc_message.rs:124-130 *)
Definition tid (m : kmsg) : bytes := match m with MQuery t _ _ _ | MResp t _ _ | MError t _ _ => t end.

(** ** construction *)
(** krpc_message.rs:132-227 *)
Definition ping_query (id : ID) (t : bytes) : kmsg := MQuery t x71 (str "ping") (APing id).
Definition ping_resp (id : ID) (t : bytes) : kmsg := MResp t x72 (RPing id).
Definition find_nodes_query (id target : ID) (t : bytes) : kmsg := MQuery t x71 (str "find_node") (AFindNode id target).
Definition find_nodes_resp (id : ID) (n : nodes) (t : bytes) : kmsg := MResp t x72 (RFindNode id n).
Definition get_peers_query (id ih : ID) (t : bytes) : kmsg := MQuery t x71 (str "get_peers") (AGetPeers id ih).
Definition get_peers_resp (id : ID) (token : bytes) (v : von) (t : bytes) : kmsg := MResp t x72 (RGetPeers id token v).
Definition announce_peer_query (id ih : ID) (p : N) (token t : bytes) : kmsg := MQuery t x71 (str "announce_peer") (AAnnounce id ih p token).
Definition announce_peer_resp (id : ID) (t : bytes) : kmsg := MResp t x72 (RAnnounce id).
Definition error_resp (e : list kerror) (t : bytes) : kmsg := MError t x65 e.

(** to_connection.rs:21-43 *)
Inductive to_query := QPing | QFindNode (target : ID) | QGetPeers (ih : ID) | QAnnounce (ih : ID) (port : N) (token : bytes).
Inductive to_resp := PPing | PFindNode (n : nodes) | PGetPeers (v : von) | PAnnounce.
(** to_connection.rs:45-62, for the drawn transaction id *)
Definition query_message (own : ID) (t : bytes) (q : to_query) : kmsg :=
  match q with
  | QPing => ping_query own t
  | QFindNode target => find_nodes_query own target t
  | QGetPeers ih => get_peers_query own ih t
  | QAnnounce ih p token => announce_peer_query own ih p token t
  end.
(** to_connection.rs:64-82 *)
Definition resp_message (own : ID) (t token : bytes) (r : to_resp) : kmsg :=
  match r with
  | PPing => ping_resp own t
  | PFindNode n => find_nodes_resp own n t
  | PGetPeers v => get_peers_resp own token v t
  | PAnnounce => announce_peer_resp own t
  end.

(** ** writing *)
(** A dictionary with its entries sorted by key, as bendy writes structs. *)
Fixpoint key_ins (e : bytes * bval) (l : list (bytes * bval)) : list (bytes * bval) :=
  match l with
  | [] => [e]
  | x :: t => if bytes_lt (fst x) (fst e) then x :: key_ins e t else e :: l
  end.
Definition kdict (l : list (bytes * bval)) : bval := BDict (fold_right key_ins [] l).
(** krpc_message.rs:314-321 [push_node_bytes_to_vec] *)
Definition node_bytes (n : node) : bytes := n_id n ++ peer_to_bytes (n_addr n).
(** krpc_message.rs:286-311 [Nodes::iter] *)
Definition nodes_list (n : nodes) : list node := match n with Exact x => [x] | Closest l => l end.
(** krpc_message.rs:323-343 *)
Definition nodes_bytes (n : nodes) : bytes := flat_map node_bytes (nodes_list n).
(** krpc_message.rs:232-243 *)
Definition type_bytes (y : byte) : bytes :=
  match y with x71 => str "q" | x72 => str "r" | _ => str "e" end.
(** derived [Serialize] *)
Definition von_fields (v : von) : list (bytes * bval) :=
  match v with
  | VValues l => [(str "values", BList (map (fun a => BStr (peer_to_bytes a)) l))]
  | VNodes n => [(str "nodes", BStr (nodes_bytes n))]
  end.
Definition args_bval (a : args) : bval :=
  match a with
  | AAnnounce id ih p token => kdict [(str "id", BStr id); (str "info_hash", BStr ih); (str "port", BInt (Z.of_N p)); (str "token", BStr token)]
  | AFindNode id target => kdict [(str "id", BStr id); (str "target", BStr target)]
  | AGetPeers id ih => kdict [(str "id", BStr id); (str "info_hash", BStr ih)]
  | APing id => kdict [(str "id", BStr id)]
  end.
Definition resp_bval (r : resp) : bval :=
  match r with
  | RGetPeers id token v => kdict ([(str "id", BStr id); (str "token", BStr token)] ++ von_fields v)
  | RFindNode id n => kdict [(str "id", BStr id); (str "nodes", BStr (nodes_bytes n))]
  | RPing id => kdict [(str "id", BStr id)]
  | RAnnounce id => kdict [(str "id", BStr id)]
  end.
Definition error_bval (e : kerror) : bval := match e with ECode n => BInt (Z.of_N n) | EDesc s => BStr s end.
Definition kmsg_bval (m : kmsg) : bval :=
  match m with
  | MQuery t y name a => kdict [(str "t", BStr t); (str "y", BStr (type_bytes y)); (str "q", BStr name); (str "a", args_bval a)]
  | MResp t y r => kdict [(str "t", BStr t); (str "y", BStr (type_bytes y)); (str "r", resp_bval r)]
  | MError t y e => kdict [(str "t", BStr t); (str "y", BStr (type_bytes y)); (str "e", BList (map error_bval e))]
  end.
(** krpc_message.rs:116-118; bendy's writer does not fail on these values. *)
Definition kmsg_bytes (m : kmsg) : bytes := enc (kmsg_bval m).

(** ** reading *)
(** [String]: [std::str::from_utf8] *)
Definition in_range (lo hi : N) (b : byte) : bool := (lo <=? b2n b)%N && (b2n b <=? hi)%N.
Definition cont (b : byte) : bool := in_range 0x80 0xbf b.
Fixpoint utf8_ok (s : bytes) : bool :=
  match s with
  | [] => true
  | a :: s1 =>
    if in_range 0 0x7f a then utf8_ok s1 else
    match s1 with
    | [] => false
    | b :: s2 =>
      if in_range 0xc2 0xdf a then cont b && utf8_ok s2 else
      match s2 with
      | [] => false
      | c :: s3 =>
        if in_range 0xe0 0xef a then
          in_range (if (b2n a =? 0xe0)%N then 0xa0 else 0x80) (if (b2n a =? 0xed)%N then 0x9f else 0xbf) b && cont c && utf8_ok s3
        else
        match s3 with
        | [] => false
        | d :: s4 =>
          in_range 0xf0 0xf4 a &&
          in_range (if (b2n a =? 0xf0)%N then 0x90 else 0x80) (if (b2n a =? 0xf4)%N then 0x8f else 0xbf) b && cont c && cont d && utf8_ok s4
        end
      end
    end
  end.
(** Field parsers. *)
Definition p_id (v : bval) : res ID := match v with BStr s => id_deserialize s | _ => Fail end.
(** serializable_buf.rs:59-83 *)
Definition p_buf (v : bval) : res bytes := match v with BStr s => Val s | _ => Fail end.
Definition p_string (v : bval) : res bytes := match v with BStr s => if utf8_ok s then Val s else Fail | _ => Fail end.
Definition p_uint (max : N) (v : bval) : res N :=
  match v with BInt z => if (0 <=? z)%Z && (z <=? Z.of_N max)%Z then Val (Z.to_N z) else Fail | _ => Fail end.
(** peer.rs:48-76 *)
Definition p_peer (v : bval) : res addr := match v with BStr s => peer_visit_bytes s | _ => Fail end.
Fixpoint map_res {A B} (p : A -> res B) (l : list A) : res (list B) :=
  match l with
  | [] => Val []
  | x :: t => rbind (p x) (fun y => rmap (cons y) (map_res p t))
  end.
Definition p_list {A} (p : bval -> res A) (v : bval) : res (list A) :=
  match v with BList l => map_res p l | _ => Fail end.
(** [slice::chunks] *)
Fixpoint chunks_go {A} (fuel k : nat) (l : list A) : list (list A) :=
  match fuel with
  | O => []
  | S f => match l with [] => [] | _ => firstn k l :: chunks_go f k (skipn k l) end
  end.
Definition chunks {A} (k : nat) (l : list A) : list (list A) := chunks_go (length l) k l.
(** krpc_message.rs:345-393 *)
Definition p_nodes (v : bval) : res nodes :=
  match v with
  | BStr s =>
    if negb (length s mod COMPACT_NODE_LEN =? 0) then Fail
    else if length s / COMPACT_NODE_LEN =? 1 then rmap Exact (node_from_compact s)
    else rmap Closest (map_res node_from_compact (chunks COMPACT_NODE_LEN s))
  | _ => Fail
  end.
(** krpc_message.rs:245-284 *)
Definition p_type (v : bval) : res byte :=
  match v with
  | BStr [b] => if Byte.eqb b x71 || Byte.eqb b x72 || Byte.eqb b x65 then Val b else Fail
  | _ => Fail
  end.
(** A field of a dictionary, if present. *)
Fixpoint lookup (k : bytes) (d : list (bytes * bval)) : option bval :=
  match d with
  | [] => None
  | (k', v) :: t => if bytes_eqb k' k then Some v else lookup k t
  end.
Definition field {A} (d : list (bytes * bval)) (k : string) (p : bval -> res A) : res (option A) :=
  match lookup (str k) d with None => Val None | Some v => rmap Some (p v) end.
(** serde's missing-field error *)
Definition need {A} (o : option A) : res A := match o with Some x => Val x | None => Fail end.
(** Untagged alternatives: the next one is tried after an error. *)
Definition orelse {A} (a b : res A) : res A := match a with Fail => b | _ => a end.
Notation "'let?' x := e 'in' b" := (rbind e (fun x => b)) (at level 200, x name).
(** krpc_message.rs:44-63; the fields are listed in the order of their keys. *)
Definition p_args (v : bval) : res args :=
  match v with
  | BDict d =>
    orelse (let? id := field d "id" p_id in let? ih := field d "info_hash" p_id in
            let? p := field d "port" (p_uint 65535) in let? t := field d "token" p_buf in
            let? id := need id in let? ih := need ih in let? p := need p in let? t := need t in Val (AAnnounce id ih p t))
   (orelse (let? id := field d "id" p_id in let? tg := field d "target" p_id in
            let? id := need id in let? tg := need tg in Val (AFindNode id tg))
   (orelse (let? id := field d "id" p_id in let? ih := field d "info_hash" p_id in
            let? id := need id in let? ih := need ih in Val (AGetPeers id ih))
           (let? id := field d "id" p_id in let? id := need id in Val (APing id))))
  | _ => Fail
  end.
(** krpc_message.rs:95-100 *)
Definition p_von (d : list (bytes * bval)) : res von :=
  orelse (let? l := field d "values" (p_list p_peer) in let? l := need l in Val (VValues l))
         (let? n := field d "nodes" p_nodes in let? n := need n in Val (VNodes n)).
(** krpc_message.rs:65-86; the flattened field is read from the remaining
    entries after the named ones. *)
Definition p_resp (v : bval) : res resp :=
  match v with
  | BDict d =>
    orelse (let? id := field d "id" p_id in let? t := field d "token" p_buf in
            let? id := need id in let? t := need t in let? v := p_von d in Val (RGetPeers id t v))
   (orelse (let? id := field d "id" p_id in let? n := field d "nodes" p_nodes in
            let? id := need id in let? n := need n in Val (RFindNode id n))
   (orelse (let? id := field d "id" p_id in let? id := need id in Val (RPing id))
           (let? id := field d "id" p_id in let? id := need id in Val (RAnnounce id))))
  | _ => Fail
  end.
(** krpc_message.rs:88-93 *)
Definition p_error (v : bval) : res kerror :=
  orelse (rmap ECode (p_uint 4294967295 v)) (rmap EDesc (p_string v)).
(** krpc_message.rs:14-42 *)
Definition p_kmsg (v : bval) : res kmsg :=
  match v with
  | BDict d =>
    orelse (let? a := field d "a" p_args in let? q := field d "q" p_string in
            let? t := field d "t" p_buf in let? y := field d "y" p_type in
            let? t := need t in let? y := need y in let? q := need q in let? a := need a in Val (MQuery t y q a))
   (orelse (let? r := field d "r" p_resp in let? t := field d "t" p_buf in let? y := field d "y" p_type in
            let? t := need t in let? y := need y in let? r := need r in Val (MResp t y r))
           (let? e := field d "e" (p_list p_error) in let? t := field d "t" p_buf in let? y := field d "y" p_type in
            let? t := need t in let? y := need y in let? e := need e in Val (MError t y e)))
  | _ => Fail
  end.
(** Every integer must fit i64 (negative) or u64. *)
Fixpoint ints_ok (v : bval) : bool :=
  match v with
  | BInt z => (-2 ^ 63 <=? z)%Z && (z <? 2 ^ 64)%Z
  | BStr _ => true
  | BList l => forallb ints_ok l
  | BDict l => forallb (fun kv => ints_ok (snd kv)) l
  end.
(** krpc_message.rs:120-122: bytes after the value are ignored. *)
Definition kmsg_from_bytes (s : bytes) : res kmsg :=
  match decode s with
  | Some (v, _) => if ints_ok v then p_kmsg v else Fail
  | None => Fail
  end.
