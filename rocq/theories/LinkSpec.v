(** Vocabulary for C111-C113, in terms of what happens at the two ends of the
    connection. *)
From Coq Require Import List NArith ZArith Lia Bool Arith.
From Verif Require Import Base IdModel WireModel WireSpec LinkModel.
Import ListNotations.
Set Implicit Arguments.

(** What the other tasks asked to be sent, in order. *)
Definition queued (es : list levent) : list message :=
  flat_map (fun e => match e with EQueue m => [m] | _ => [] end) es.
(** What was read from the peer. *)
Definition heard (es : list levent) : bytes :=
  flat_map (fun e => match e with ERead c => c | _ => [] end) es.
Definition reads (es : list levent) : list bytes :=
  flat_map (fun e => match e with ERead c => [c] | _ => [] end) es.
(** What was written to the peer; what was handed to the other tasks. *)
Definition said (os : list loutput) : bytes :=
  flat_map (fun o => match o with OBytes b => b | _ => [] end) os.
Definition passed_on (os : list loutput) : list delivery :=
  flat_map (fun o => match o with ODeliver d => [d] | _ => [] end) os.
Definition write_fails (es : list levent) : Prop := In EWriteErr es.
Definition ended (s : link) : Prop := l_phase s = LEnd.
Definition up (s : link) : Prop := match l_phase s with LUp _ _ => True | _ => False end.
(** The handshake this client sends (BEP-3, with the DHT bit of BEP-5). *)
Definition hello (info_hash peer_id : ID) : bytes := bep3_handshake reserved_dht info_hash peer_id.
Definition is_prefix (A : Type) (a b : list A) : Prop := exists t, b = a ++ t.
(** [b] consists of a beginning of each of [ms], in order. *)
Inductive torn : list message -> bytes -> Prop :=
| torn_nil : torn [] []
| torn_cons : forall m ms a b, is_prefix a (bep3_frame m) -> torn ms b -> torn (m :: ms) (a ++ b).
(** An acceptable answer to our handshake. *)
Definition answer (b : bytes) : Prop :=
  exists reserved info_hash peer_id, length reserved = 8 /\ wf_id info_hash /\ wf_id peer_id /\
    b = bep3_handshake reserved info_hash peer_id.
(** [d] are the messages of [ms] that are completely contained in [x], the
    beginning of their bytes. *)
Definition whole (d ms : list message) (x : bytes) : Prop :=
  exists todo p, ms = d ++ todo /\ x = stream_of d ++ p /\
    match todo with [] => p = [] | m :: _ => length p < length (bep3_frame m) end.
(** Events of the writing half. *)
Definition writing (e : levent) : Prop := match e with ETake | EWrote _ => True | _ => False end.
(** Events the peer decides about while its handshake is awaited. *)
Definition answering (e : levent) : Prop := match e with ERead _ | EReadErr => True | _ => False end.
(** Connecting, writing or reading fails, or something is read. *)
Definition decisive (e : levent) : Prop :=
  match e with EConnFail | EWriteErr | EReadErr | ERead _ => True | _ => False end.
