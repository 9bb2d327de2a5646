(** Vocabulary for the properties of DHT messages. *)
From Coq Require Import Strings.String.
From Coq Require Import List NArith ZArith Lia Bool Arith.
From Coq Require Import Init.Byte.
From Verif Require Import Base IdModel WireModel TableModel BencodeModel KrpcModel Utf8Spec.
Import ListNotations.
Set Implicit Arguments.

(** A node as it goes over the wire: without the time it was last seen. *)
Definition on_wire (n : node) : node := mk_node (n_id n) (n_addr n) None.
Definition wf_wnode (n : node) : Prop := wf_id (n_id n) /\ wf_addr (n_addr n).
Definition nodes_of (n : nodes) : list node := match n with Exact x => [x] | Closest l => l end.
Definition wf_nodes (n : nodes) : Prop := Forall wf_wnode (nodes_of n).
Definition wf_von (v : von) : Prop := match v with VValues l => Forall wf_addr l | VNodes n => wf_nodes n end.
Definition wf_args (a : args) : Prop :=
  match a with
  | AAnnounce id ih p t => wf_id id /\ wf_id ih /\ (p < 65536)%N
  | AFindNode id t => wf_id id /\ wf_id t
  | AGetPeers id ih => wf_id id /\ wf_id ih
  | APing id => wf_id id
  end.
Definition wf_resp (r : resp) : Prop :=
  match r with
  | RGetPeers id _ v => wf_id id /\ wf_von v
  | RFindNode id n => wf_id id /\ wf_nodes n
  | RPing id | RAnnounce id => wf_id id
  end.
Definition wf_error (e : kerror) : Prop := match e with ECode n => (n < 4294967296)%N | EDesc s => utf8 s end.
(** The messages the client can build: any transaction id, ids of 20 bytes,
    16-bit ports, 32-bit error codes, valid text. *)
Definition wf_kmsg (m : kmsg) : Prop :=
  match m with
  | MQuery _ y name a => y = x71 /\ utf8 name /\ wf_args a
  | MResp _ y r => y = x72 /\ wf_resp r
  | MError _ y e => y = x65 /\ Forall wf_error e
  end.
(** What the other side makes of it. *)
Definition seen_nodes (n : nodes) : nodes :=
  match nodes_of n with [x] => Exact (on_wire x) | l => Closest (map on_wire l) end.
Definition seen_resp (r : resp) : resp :=
  match r with
  | RGetPeers id t (VNodes n) => RGetPeers id t (VNodes (seen_nodes n))
  | RGetPeers id t (VValues l) => RGetPeers id t (VValues l)
  | RFindNode id n => RFindNode id (seen_nodes n)
  | RPing id => RPing id
  | RAnnounce id => RPing id
  end.
Definition seen (m : kmsg) : kmsg := match m with MResp t y r => MResp t y (seen_resp r) | _ => m end.

(** ** BEP 5 layout, spelled out *)
Definition ostr (s : bytes) : bytes := enc_num (N.of_nat (length s)) ++ [x3a] ++ s.
Definition compact_node (n : node) : bytes :=
  n_id n ++ addr_octets (n_addr n) ++ be_bytes 2 (port (n_addr n)).
Definition compact_peer (a : addr) : bytes := addr_octets a ++ be_bytes 2 (port a).
Local Open Scope string_scope.
Local Open Scope list_scope.
Definition bep5_args (a : args) : bytes :=
  match a with
  | AAnnounce id ih p t => str "2:id20:" ++ id ++ str "9:info_hash20:" ++ ih ++ str "4:porti" ++ enc_num p ++ str "e5:token" ++ ostr t
  | AFindNode id t => str "2:id20:" ++ id ++ str "6:target20:" ++ t
  | AGetPeers id ih => str "2:id20:" ++ id ++ str "9:info_hash20:" ++ ih
  | APing id => str "2:id20:" ++ id
  end.
Definition bep5_resp (r : resp) : bytes :=
  match r with
  | RGetPeers id t (VNodes n) => str "2:id20:" ++ id ++ str "5:nodes" ++ ostr (flat_map compact_node (nodes_of n)) ++ str "5:token" ++ ostr t
  | RGetPeers id t (VValues l) => str "2:id20:" ++ id ++ str "5:token" ++ ostr t ++ str "6:valuesl" ++ flat_map (fun a => str "6:" ++ compact_peer a) l ++ str "e"
  | RFindNode id n => str "2:id20:" ++ id ++ str "5:nodes" ++ ostr (flat_map compact_node (nodes_of n))
  | RPing id | RAnnounce id => str "2:id20:" ++ id
  end.
Definition bep5_error (e : kerror) : bytes :=
  match e with ECode n => str "i" ++ enc_num n ++ str "e" | EDesc s => ostr s end.
Definition bep5 (m : kmsg) : bytes :=
  match m with
  | MQuery t _ name a => str "d1:ad" ++ bep5_args a ++ str "e1:q" ++ ostr name ++ str "1:t" ++ ostr t ++ str "1:y1:qe"
  | MResp t _ r => str "d1:rd" ++ bep5_resp r ++ str "e1:t" ++ ostr t ++ str "1:y1:re"
  | MError t _ e => str "d1:el" ++ flat_map bep5_error e ++ str "e1:t" ++ ostr t ++ str "1:y1:ee"
  end.
(** The datagrams for each request and answer of the client. *)
Definition bep5_query (own : ID) (t : bytes) (q : to_query) : bytes :=
  match q with
  | QPing => str "d1:ad2:id20:" ++ own ++ str "e1:q4:ping1:t" ++ ostr t ++ str "1:y1:qe"
  | QFindNode g => str "d1:ad2:id20:" ++ own ++ str "6:target20:" ++ g ++ str "e1:q9:find_node1:t" ++ ostr t ++ str "1:y1:qe"
  | QGetPeers ih => str "d1:ad2:id20:" ++ own ++ str "9:info_hash20:" ++ ih ++ str "e1:q9:get_peers1:t" ++ ostr t ++ str "1:y1:qe"
  | QAnnounce ih p token => str "d1:ad2:id20:" ++ own ++ str "9:info_hash20:" ++ ih ++ str "4:porti" ++ enc_num p ++ str "e5:token" ++ ostr token ++
      str "e1:q13:announce_peer1:t" ++ ostr t ++ str "1:y1:qe"
  end.
Definition bep5_answer (own : ID) (t token : bytes) (r : to_resp) : bytes :=
  match r with
  | PPing | PAnnounce => str "d1:rd2:id20:" ++ own ++ str "e1:t" ++ ostr t ++ str "1:y1:re"
  | PFindNode n => str "d1:rd2:id20:" ++ own ++ str "5:nodes" ++ ostr (flat_map compact_node (nodes_of n)) ++ str "e1:t" ++ ostr t ++ str "1:y1:re"
  | PGetPeers (VNodes n) => str "d1:rd2:id20:" ++ own ++ str "5:nodes" ++ ostr (flat_map compact_node (nodes_of n)) ++ str "5:token" ++ ostr token ++
      str "e1:t" ++ ostr t ++ str "1:y1:re"
  | PGetPeers (VValues l) => str "d1:rd2:id20:" ++ own ++ str "5:token" ++ ostr token ++ str "6:valuesl" ++
      flat_map (fun a => str "6:" ++ compact_peer a) l ++ str "ee1:t" ++ ostr t ++ str "1:y1:re"
  end.
