(** Vocabulary for the properties of the DHT task. *)
From Coq Require Import List NArith ZArith Lia Bool Arith Permutation.
From Coq Require Import Init.Byte.
From Verif Require Import Base Assoc IdModel WireModel TableModel TableSpec PeersModel PeersSpec BencodeModel KrpcModel DhtModel DhtMgrModel.
Import ListNotations.
Set Implicit Arguments.

(** [r] is a random choice of up to [k] elements of the set [l]. *)
Definition choice (k : nat) (l r : list addr) : Prop := NoDup r /\ incl r l /\ length r = Nat.min k (length l).
Definition fair (pick : picker) : Prop := forall k l, NoDup l -> choice k l (pick k l).

(** Inputs as the socket task produces them: identifiers of 20 bytes, 16-bit
    ports; every refresh draws enough random numbers. *)
Definition wf_node (n : node) : Prop := wf_id (n_id n) /\ wf_addr (n_addr n).
Definition wf_gin (s : dmgr) (i : gin) : Prop :=
  match i with
  | GFindNode target _ _ => wf_id target
  | GGetPeers ih _ _ => wf_id ih
  | GNewPeer p ih => wf_id ih /\ wf_addr p
  | GResp (FTouch id from) => wf_id id /\ wf_addr from
  | GResp (FNewNodes n from id) => wf_id id /\ wf_addr from /\ Forall wf_node (nodes_list n)
  | GResp (FGetPeers _ _ _) => True
  | GRefresh draws => n_buckets (g_table s) <= length draws /\
      forall d, In d draws -> 20 <= length (fst d) /\ 8 <= length (snd d)
  | GPort a => True
  | GShared o => Forall wf_addr (names o)
  end.

(** Everything that happened, most recent first. The shared peer table may be
    reordered between steps (it is a [HashMap]). *)
Definition ghist := list (gin * list to_con).
Section runs.
Variables (info : ID) (m0 : peers) (t0 : table).
Inductive gruns : ghist -> dmgr -> Prop :=
| gr_nil : gruns [] (g_start info m0 t0)
| gr_step : forall h s now pick i s' o, gruns h s -> fair pick -> wf_gin s i -> gstep now pick s i = Val (s', o) ->
    gruns ((i, o) :: h) s'
| gr_reorder : forall h s m, gruns h s -> Permutation (g_peers s) m -> gruns h (mk_dmgr (g_info s) m (g_map s) (g_table s)).
End runs.

(** Peers announced for an info hash. *)
Definition announced (ih : ID) (h : ghist) : list addr :=
  flat_map (fun x => match fst x with GNewPeer p ih' => if bytes_eqb ih ih' then [p] else [] | _ => [] end) h.
(** Peers the other tasks put into the torrent's peer table. *)
Definition shared_names (h : ghist) : list addr :=
  flat_map (fun x => match fst x with GShared o => names o | _ => [] end) h.
(** Nodes that answered a query of this task: id and address. *)
Definition answered (h : ghist) : list (ID * addr) :=
  flat_map (fun x => match fst x with GResp (FTouch id from) | GResp (FNewNodes _ from id) => [(id, from)] | _ => [] end) h.
