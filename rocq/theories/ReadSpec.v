(** Which messages a decoded datagram is to be read as. *)
From Coq Require Import Strings.String.
From Coq Require Import List NArith ZArith.
From Coq Require Import Init.Byte.
From Verif Require Import Base IdModel WireModel TableModel BencodeModel KrpcModel Utf8Spec KrpcSpec.
Import ListNotations.
Set Implicit Arguments.

Definition entries := list (bytes * bval).
(** ** values *)
Definition is_id (v : bval) (x : ID) : Prop := v = BStr x /\ List.length x = 20.
Definition is_port (v : bval) (p : N) : Prop := v = BInt (Z.of_N p) /\ (p < 65536)%N.
Definition is_bytes (v : bval) (x : bytes) : Prop := v = BStr x.
Definition is_text (v : bval) (x : bytes) : Prop := v = BStr x /\ utf8 x.
Definition is_type (v : bval) (b : byte) : Prop := v = BStr [b] /\ In b (str "qre").
(** Six bytes each, in a list. *)
Definition is_peers (v : bval) (l : list addr) : Prop := v = BList (map (fun a => BStr (compact_peer a)) l) /\ Forall wf_addr l.
(** Twenty-six bytes each, in a row; a single one is kept apart. *)
Definition is_nodes (v : bval) (n : nodes) : Prop :=
  v = BStr (flat_map compact_node (nodes_of n)) /\ Forall wf_wnode (nodes_of n) /\ Forall (fun x => n_seen x = None) (nodes_of n) /\
  match n with Exact _ => True | Closest l => List.length l <> 1 end.
Definition is_errors (v : bval) (e : list kerror) : Prop :=
  v = BList (map (fun x => match x with ECode n => BInt (Z.of_N n) | EDesc s => BStr s end) e) /\ Forall wf_error e.
(** The entry [k] is there and has this value. *)
Definition at_key {A} (d : entries) (k : string) (R : bval -> A -> Prop) (x : A) : Prop := exists v, lookup (str k) d = Some v /\ R v x.
(** The first relation that holds of anything decides. *)
Fixpoint first_of {A} (l : list (A -> Prop)) (x : A) : Prop :=
  match l with
  | [] => False
  | R :: t => R x \/ ((forall y, ~ R y) /\ first_of t x)
  end.

(** ** messages *)
Definition r_announce (d : entries) (x : args) : Prop := exists id ih p t,
  x = AAnnounce id ih p t /\ at_key d "id" is_id id /\ at_key d "info_hash" is_id ih /\ at_key d "port" is_port p /\ at_key d "token" is_bytes t.
Definition r_find (d : entries) (x : args) : Prop := exists id tg, x = AFindNode id tg /\ at_key d "id" is_id id /\ at_key d "target" is_id tg.
Definition r_get (d : entries) (x : args) : Prop := exists id ih, x = AGetPeers id ih /\ at_key d "id" is_id id /\ at_key d "info_hash" is_id ih.
Definition r_ping (d : entries) (x : args) : Prop := exists id, x = APing id /\ at_key d "id" is_id id.
Definition is_args (v : bval) (x : args) : Prop := exists d, v = BDict d /\ first_of [r_announce d; r_find d; r_get d; r_ping d] x.

Definition r_values (d : entries) (x : von) : Prop := exists l, x = VValues l /\ at_key d "values" is_peers l.
Definition r_nodes (d : entries) (x : von) : Prop := exists n, x = VNodes n /\ at_key d "nodes" is_nodes n.
Definition r_peers (d : entries) (x : resp) : Prop := exists id t v,
  x = RGetPeers id t v /\ at_key d "id" is_id id /\ at_key d "token" is_bytes t /\ first_of [r_values d; r_nodes d] v.
Definition r_found (d : entries) (x : resp) : Prop := exists id n, x = RFindNode id n /\ at_key d "id" is_id id /\ at_key d "nodes" is_nodes n.
Definition r_pong (d : entries) (x : resp) : Prop := exists id, x = RPing id /\ at_key d "id" is_id id.
Definition is_resp (v : bval) (x : resp) : Prop := exists d, v = BDict d /\ first_of [r_peers d; r_found d; r_pong d] x.

Definition r_query (d : entries) (m : kmsg) : Prop := exists t y q a,
  m = MQuery t y q a /\ at_key d "t" is_bytes t /\ at_key d "y" is_type y /\ at_key d "q" is_text q /\ at_key d "a" is_args a.
Definition r_response (d : entries) (m : kmsg) : Prop := exists t y r,
  m = MResp t y r /\ at_key d "t" is_bytes t /\ at_key d "y" is_type y /\ at_key d "r" is_resp r.
Definition r_error (d : entries) (m : kmsg) : Prop := exists t y e,
  m = MError t y e /\ at_key d "t" is_bytes t /\ at_key d "y" is_type y /\ at_key d "e" is_errors e.
Definition reads (v : bval) (m : kmsg) : Prop := exists d, v = BDict d /\ first_of [r_query d; r_response d; r_error d] m.

(** The method a query ought to name for its arguments, and the type it ought
    to have (BEP 5). *)
Definition method (a : args) : bytes :=
  match a with
  | AAnnounce _ _ _ _ => str "announce_peer" | AFindNode _ _ => str "find_node" | AGetPeers _ _ => str "get_peers" | APing _ => str "ping"
  end.
Definition proper (m : kmsg) : Prop :=
  match m with
  | MQuery _ y q a => y = x71 /\ q = method a
  | MResp _ y _ => y = x72
  | MError _ y _ => y = x65
  end.
