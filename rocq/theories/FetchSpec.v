(** Vocabulary for the properties of the search for peers. *)
From Coq Require Import List NArith ZArith Lia Bool Arith Permutation.
From Coq Require Import Init.Byte.
From Verif Require Import Base Assoc IdModel WireModel TableModel TableSpec PeersModel PeersSpec PeersProofs BencodeModel KrpcModel DhtModel DhtMgrModel FetchModel.
Import ListNotations.
Set Implicit Arguments.

(** How promising a node is: first those that had peers, then those that
    answered, then the rest. *)
Definition rank (n : fnode) : nat := match n with FHasPeers _ _ => 0 | FPeerless _ _ => 1 | FUnknown _ => 2 end.
Definition far (ih : ID) (n : fnode) : N := dist ih (f_id n).
(** [a] is strictly more promising than [b]. *)
Definition better (ih : ID) (a b : fnode) : Prop := rank a < rank b \/ (rank a = rank b /\ (far ih a < far ih b)%N).

Definition fhist := list (fev * list to_con).
(** Identifiers in answers have 20 bytes. *)
Definition wf_fev (e : fev) : Prop :=
  match e with
  | FResp (FGetPeers _ _ (VNodes n)) => Forall (fun x => wf_id (n_id x)) (nodes_list n)
  | _ => True
  end.
Section runs.
Variable usize_max : nat.
Variables (ih : ID) (port : N) (start : list node) (m0 : peers).
(** Both maps may be reordered at any time. *)
Inductive fruns : fhist -> fetcher -> Prop :=
| fr_nil : fruns [] (f_start ih port start m0)
| fr_step : forall h s e s' o, fruns h s -> wf_fev e -> fstep usize_max s e = Val (s', o) -> fruns ((e, o) :: h) s'
| fr_reorder : forall h s m p, fruns h s -> Permutation (fs_nodes s) m -> Permutation (fs_peers s) p ->
    fruns h (mk_fet (fs_info s) (fs_port s) m p (fs_busy s)).
End runs.

(** The addresses asked for peers by a step. *)
Definition asked (o : list to_con) : list addr :=
  flat_map (fun c => match c with CQuery a (QGetPeers _) => [a] | _ => [] end) o.
(** Everything asked since the start of the current round. *)
Fixpoint asked_this_round (h : fhist) : list addr :=
  match h with
  | [] => []
  | (FTick, o) :: _ => asked o
  | (_, o) :: h => asked o ++ asked_this_round h
  end.
(** The token an address supplied last. *)
Fixpoint last_token (a : addr) (h : fhist) : option bytes :=
  match h with
  | [] => None
  | (FResp (FGetPeers from token _), _) :: h => if addr_eqb a from then Some token else last_token a h
  | _ :: h => last_token a h
  end.
(** Peers named in answers of nodes that were asked in that round. *)
Fixpoint learnt (h : fhist) : list addr :=
  match h with
  | [] => []
  | (FResp (FGetPeers from _ (VValues l)), _) :: h => (if in_dec addr_dec from (asked_this_round h) then l else []) ++ learnt h
  | _ :: h => learnt h
  end.
Definition f_shared (h : fhist) : list addr := flat_map (fun x => match fst x with FShared o => names o | _ => [] end) h.
(** The announcements a step sends: address, info hash, port, token. *)
Definition announcements (o : list to_con) : list (addr * ID * N * bytes) :=
  flat_map (fun c => match c with CQuery a (QAnnounce i p t) => [(a, i, p, t)] | _ => [] end) o.
(** When an event can happen. *)
Definition enabled (s : fetcher) (e : fev) : Prop :=
  match e with FTick => fs_busy s = false | FQuiet | FResp _ => fs_busy s = true | FShared _ => True end.
