(** Vocabulary for the tracker properties: how a server takes a URL apart
    (RFC 3986: the fragment starts at the first [#], the query at the first [?];
    parameters are separated by [&], a name ends at the first [=], [%XX] stands
    for a byte). *)
From Coq Require Import Strings.String.
From Coq Require Import List NArith ZArith Lia Bool Arith.
From Coq Require Import Init.Byte.
From Verif Require Import Base IdModel WireModel BencodeModel KrpcModel TrackerModel Utf8Spec.
Import ListNotations.
Set Implicit Arguments.

(** The part before the first [c], and the part after it if there is one. *)
Fixpoint cut (c : byte) (s : bytes) : bytes * option bytes :=
  match s with
  | [] => ([], None)
  | x :: t => if Byte.eqb x c then ([], Some t) else let '(a, b) := cut c t in (x :: a, b)
  end.
(** The parts between the [c]s. *)
Fixpoint split (c : byte) (s : bytes) : list bytes :=
  match s with
  | [] => [[]]
  | x :: t =>
    if Byte.eqb x c then [] :: split c t
    else match split c t with h :: r => (x :: h) :: r | [] => [[x]] end
  end.
Definition hex_value (b : byte) : option N :=
  let n := b2n b in
  if (48 <=? n)%N && (n <=? 57)%N then Some (n - 48)%N
  else if (65 <=? n)%N && (n <=? 70)%N then Some (n - 55)%N
  else if (97 <=? n)%N && (n <=? 102)%N then Some (n - 87)%N
  else None.
Fixpoint percent_decode (s : bytes) : option bytes :=
  match s with
  | [] => Some []
  | x25 :: t =>
    match t with
    | h :: l :: r =>
      match hex_value h, hex_value l, percent_decode r with
      | Some a, Some b, Some r => Some (n2b (16 * a + b) :: r)
      | _, _, _ => None
      end
    | _ => None
    end
  | x :: t => option_map (cons x) (percent_decode t)
  end.
(** RFC 3986, section 2.3: characters that need no encoding anywhere. *)
Definition url_unreserved (b : byte) : Prop :=
  (48 <= b2n b <= 57)%N \/ (65 <= b2n b <= 90)%N \/ (97 <= b2n b <= 122)%N \/ In b (str "-._~").
(** A name and its value. *)
Definition param (s : bytes) : option (bytes * bytes) :=
  match cut x3d s with
  | (k, Some v) => match percent_decode k, percent_decode v with Some k, Some v => Some (k, v) | _, _ => None end
  | (_, None) => None
  end.
Fixpoint all_some {A} (l : list (option A)) : option (list A) :=
  match l with
  | [] => Some []
  | x :: t => match x, all_some t with Some x, Some t => Some (x :: t) | _, _ => None end
  end.
(** The resource and the parameters of a request. *)
Definition resource (url : bytes) : bytes := fst (cut x3f (fst (cut x23 url))).
Definition params (url : bytes) : option (list (bytes * bytes)) :=
  match snd (cut x3f (fst (cut x23 url))) with
  | Some q => all_some (map param (split x26 q))
  | None => None
  end.
(** What an announce is meant to tell the tracker. *)
Definition event_name (e : announce_event) : bytes :=
  match e with Started => str "started" | Stopped => str "stopped" | Completed => str "completed" end.
Definition told (a : announce) : list (bytes * bytes) :=
  [(str "info_hash", a_info_hash a); (str "peer_id", a_peer_id a); (str "port", enc_num (a_port a));
   (str "uploaded", enc_num (a_uploaded a)); (str "downloaded", enc_num (a_downloaded a)); (str "left", enc_num (a_left a));
   (str "compact", if a_compact a then str "1" else str "0")] ++
  (if a_compact a then [] else [(str "no_peer_id", if a_no_peer_id a then str "1" else str "0")]) ++
  match a_event a with Some e => [(str "event", event_name e)] | None => [] end ++
  match a_tracker_id a with Some t => [(str "trackerid", t)] | None => [] end.
(** Text without characters that have a meaning in a query. *)
Definition plain_text (s : bytes) : Prop := forall b, In b s -> b <> x26 /\ b <> x23 /\ b <> x25.

(** ** Answers *)
(** Fields of a bencoded dictionary. *)
Definition absent (d : list (bytes * bval)) (k : string) : Prop := ~ In (str k) (map fst d).
Definition number (d : list (bytes * bval)) (k : string) (n : N) : Prop :=
  In (str k, BInt (Z.of_N n)) d /\ (n < 2 ^ 64)%N.
Definition text (d : list (bytes * bval)) (k : string) (s : bytes) : Prop := In (str k, BStr s) d /\ utf8 s.
Definition maybe {A} (P : A -> Prop) (none : Prop) (o : option A) : Prop := match o with Some x => P x | None => none end.
(** Six bytes per peer, address and port in network order; less than six bytes
    may be left over at the end. *)
Definition six (a : addr) : bytes := addr_octets a ++ be_bytes 2 (port a).
Definition listed (d : list (bytes * bval)) (l : list addr) : Prop :=
  Forall wf_addr l /\ exists rest, In (str "peers", BStr (flat_map six l ++ rest)) d /\ length rest < 6.
(** The dictionary [d] says [r]. *)
Definition says (d : list (bytes * bval)) (r : response) : Prop :=
  number d "interval" (r_interval r) /\ number d "complete" (r_complete r) /\ number d "incomplete" (r_incomplete r) /\
  listed d (r_peers r) /\
  maybe (number d "min interval") (absent d "min interval") (r_min_interval r) /\
  maybe (text d "warning message") (absent d "warning message") (r_warning r) /\
  maybe (text d "tracker id") (absent d "tracker id") (r_tracker_id r).

(** ** Sessions *)
(** The requests of a list of actions, of a session. *)
Definition requests (l : list tout) : list announce := flat_map (fun o => match o with Get a => [a] | Found _ => [] end) l.
Definition requests_of (tr : list tentry) : list announce := flat_map (fun e => requests (e_outs e)) tr.
Definition is_answer (e : tevent) : Prop := exists r, e = Answer r.
(** The first tracker id received. *)
Fixpoint first_id (tr : list tentry) : option bytes :=
  match tr with
  | [] => None
  | e :: t => match e_event e with
              | Answer r => match r_tracker_id r with Some i => Some i | None => first_id t end
              | _ => first_id t
              end
  end.
(** How often something happened. *)
Definition count_events (p : tevent -> bool) (tr : list tentry) : nat := length (filter (fun e => p (e_event e)) tr).
Definition is_completion (e : tevent) : bool := match e with Completion => true | _ => false end.
Definition is_completion_read (e : tevent) : bool := match e with CompletionRead => true | _ => false end.
(** The announce is about this torrent, from this client, for this tracker. *)
Definition about (c : tracker_cfg) (a : announce) : Prop :=
  a_url a = c_url c /\ a_info_hash a = c_info_hash c /\ a_peer_id a = c_peer_id c /\ a_port a = c_port c /\ a_compact a = true.
(** What is missing, in bytes, counting whole pieces. *)
Definition missing (c : tracker_cfg) (downloaded n : N) : Prop :=
  (downloaded <= c_pieces c)%N /\ n = ((c_pieces c - downloaded) * c_piece_length c)%N.
