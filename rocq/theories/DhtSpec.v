(** Vocabulary for the properties of the DHT socket task: histories of what it
    was asked to do, what it received and what it did. *)
From Coq Require Import List NArith ZArith Lia Bool Arith.
From Coq Require Import Init.Byte.
From Verif Require Import Base IdModel WireModel TableModel BencodeModel KrpcModel DhtModel.
Import ListNotations.
Set Implicit Arguments.

Section runs.
Variable sha : bytes -> bytes.
Variables own secret : ID.
(** Everything that happened so far, most recent first. *)
Definition history := list (ev * list out).
Inductive runs : history -> dcon -> Prop :=
| runs_nil : runs [] (mk_dcon own secret [])
| runs_cons : forall h s e x s' o, runs h s -> dstep sha e s x = Val (s', o) -> runs ((x, o) :: h) s'.
End runs.

Definition kind_asked (q : to_query) : kind :=
  match q with QPing => KPing | QFindNode _ => KFindNode | QGetPeers _ => KGetPeers | QAnnounce _ _ _ => KAnnounce end.
Definition kind_answered (r : resp) : kind :=
  match r with RPing _ => KPing | RFindNode _ _ => KFindNode | RGetPeers _ _ _ => KGetPeers | RAnnounce _ => KAnnounce end.
(** What a requester is told. *)
Definition told (r : resp) (from : addr) : from_resp :=
  match r with
  | RPing id | RAnnounce id => FTouch id from
  | RFindNode id n => FNewNodes n from id
  | RGetPeers _ token v => FGetPeers from token v
  end.
Definition is_delivery (o : out) : bool := match o with OResp _ _ => true | _ => false end.
(** The request with transaction id [t] still waiting for its answer: the
    latest query with this id, unless an answer to [t] was passed on since. *)
Fixpoint outstanding (h : history) (t : bytes) : option (kind * nat) :=
  match h with
  | [] => None
  | (EQuery req _ q t', _) :: h' => if bytes_eqb t t' then Some (kind_asked q, req) else outstanding h' t
  | (EIn _ (MResp t' _ _), o) :: h' =>
    if bytes_eqb t t' && existsb is_delivery o then None else outstanding h' t
  | _ :: h' => outstanding h' t
  end.
Definition asked_by (req : nat) (x : ev) : bool := match x with EQuery r _ _ _ => r =? req | _ => false end.
Definition delivered_to (req : nat) (o : out) : bool := match o with OResp r _ => r =? req | _ => false end.
(** Number of queries of a task, number of answers passed on to it. *)
Definition queries (req : nat) (h : history) : nat := length (filter (asked_by req) (map fst h)).
Definition deliveries (req : nat) (h : history) : nat := length (filter (delivered_to req) (flat_map snd h)).
