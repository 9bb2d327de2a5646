(** Vocabulary for the properties of the client as a whole. *)
From Coq Require Import List NArith ZArith Lia Bool Arith.
From Verif Require Import Base IdModel WireModel TableModel TrackerModel ManagerModel KrpcModel DhtModel DhtSysModel DhtSysSpec ClientModel.
Import ListNotations.
Set Implicit Arguments.

(** The torrent manager, all connections, all downloaders and the DHT task have
    ended. *)
Definition downloading_over (s : client) : Prop :=
  q_mgr s = None /\ (forall x, In x (q_cons s) -> pc_con x = false /\ pc_dl x = false) /\ y_phase (q_dht s) = PGone.
(** Connection [i] is up: the handshake is done and the task lives. *)
Definition connected (s : client) (i : nat) : Prop := exists x, nth_error (q_cons s) i = Some x /\ pc_con x = true /\ pc_shaking x = false.
(** Steps the client makes without hearing anything from a peer, a tracker, a
    DHT node or the user; a handshake that is not answered counts among them. *)
Definition unprompted (e : cev) : Prop :=
  match e with
  | CTake | CDl _ | CSendEnd _ | CShake _ false => True
  | CDht (YTurn _ _ (SNoPeers | SShutdown)) | CDht YOut | CDht YSend | CDht (YCmd _) | CDht (YCheck _ _) => True
  | CTrk _ _ Shutdown => True
  | CExit => True
  | _ => False
  end.
(** What the outside saw. *)
Definition seen (h : list (cev * list cout)) : list cout := flat_map snd h.

(** The peers that were connected to. *)
Definition connects (h : list (cev * list cout)) : list addr := flat_map (fun o => match o with CConnect p => [p] | _ => [] end) (seen h).
(** The connections that are up or being set up. *)
Definition live (s : client) : list pcon := filter pc_con (q_cons s).
(** Somebody named peer [p] to the client: a tracker in its answer, a DHT node
    in an answer to [get_peers], or the peer by announcing itself for our
    torrent with the token it was given. *)
Definition named (sha : bytes -> bytes) (secret info : ID) (p : addr) (e : cev) : Prop :=
  match e with
  | CTrk _ _ (Answer r) => In p (r_peers r)
  | CDht (YIn _ (MResp _ _ (RGetPeers _ _ (VValues l)))) => In p l
  | CDht (YIn from (MQuery _ _ _ (AAnnounce _ ih n token))) =>
      p = mk_addr (ip0 from) (ip1 from) (ip2 from) (ip3 from) n /\ ih = info /\ token = sha (secret ++ addr_octets from)
  | _ => False
  end.

(** Messages of a peer that the manager of a torrent with [n] pieces does not
    survive. *)
Definition fatal (n : nat) (m : message) : bool :=
  match m with Request _ | Cancel _ => true | Have i => (N.of_nat n <=? i)%N | _ => false end.
(** Messages that say what a peer has. *)
Definition tells_pieces (e : cev) : bool := match e with CRecv _ (Have _) | CRecv _ (Bitfield _) => true | _ => false end.
(** Nothing of what ends the manager: no fatal message, no finished piece, no
    downloader that panics with the mutex locked. *)
Definition harmless (n : nat) (e : cev) : bool :=
  match e with CRecv _ m => negb (fatal n m) | CDone _ _ _ => false | CDlPanic _ lock => negb lock | _ => true end.

(** A handshake succeeds. *)
Definition shaken (e : cev) : bool := match e with CShake _ true => true | _ => false end.
(** Peers of a table that wait to be tried. *)
Definition waiting (t : PeersModel.peers) : list addr := map fst (filter (fun x => match snd x with PeersModel.Unknown => true | _ => false end) t).
