(** Vocabulary for whom the DHT asks, and what: from whom an address or a token
    was heard. *)
From Coq Require Import List NArith Bool Arith.
From Coq Require Import Init.Byte.
From Verif Require Import Base IdModel WireModel TableModel PeersModel BencodeModel KrpcModel DhtModel DhtSpec DhtSysModel DhtSysSpec.
Import ListNotations.
Set Implicit Arguments.

(** A query with this transaction id and of this kind was sent. *)
Definition queried (h : yhist) (t : bytes) (k : kind) : Prop :=
  exists to y name a, In (to, MQuery t y name a) (sent h) /\ kind_queried a = k.
(** An answer: a response from [from] to a query that was sent before, with the
    transaction id and of the kind of the query. *)
Definition answer (h : yhist) (from : addr) (r : resp) : Prop :=
  exists h1 h2 t y o, h = h1 ++ (YIn from (MResp t y r), o) :: h2 /\ queried h1 t (kind_answered r).
(** The addresses of the nodes listed. *)
Definition listed (n : nodes) : list addr := match n with Exact x => [n_addr x] | Closest l => map n_addr l end.
(** The nodes an answer makes known: its sender and those it lists. *)
Definition makes_known (from : addr) (r : resp) : list addr :=
  match r with
  | RPing _ | RAnnounce _ => [from]
  | RFindNode _ n => from :: listed n
  | RGetPeers _ _ (VNodes n) => listed n
  | RGetPeers _ _ (VValues _) => []
  end.
(** An address is a known DHT node: it was in the table at the start, an answer
    made it known, or a connected peer gave it as its own DHT port. *)
Definition known_node (t : table) (h : yhist) (a : addr) : Prop :=
  In a (map n_addr (t_nodes t)) \/ (exists from r, answer h from r /\ In a (makes_known from r)) \/ In (YPort a) (map fst h).
(** The address gave us this token, in an answer to a get_peers query. *)
Definition gave_token (h : yhist) (a : addr) (tok : bytes) : Prop := exists id v, answer h a (RGetPeers id tok v).
(** The part of a history after the last get_peers query to [a]. *)
Definition asks_peers (a : addr) (x : yev * list (addr * kmsg)) : bool :=
  existsb (fun d => match d with (to, MQuery _ _ _ (AGetPeers _ _)) => addr_eqb to a | _ => false end) (snd x).
Fixpoint since_asked (a : addr) (h : yhist) : yhist :=
  match h with
  | [] => []
  | x :: r => if existsb (asks_peers a) r then since_asked a r else if asks_peers a x then r else h
  end.
(** [a] gave this token since it was last asked. *)
Definition fresh_token (h : yhist) (a : addr) (tok : bytes) : Prop :=
  exists t v id vn, In (YIn a (MResp t v (RGetPeers id tok vn))) (map fst (since_asked a h)).
