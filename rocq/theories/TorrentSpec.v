(** Vocabulary for the properties of the manager with its downloaders. *)
From Coq Require Import List NArith Bool Arith.
From Verif Require Import Base Assoc BitmapModel IdModel WireModel PeersModel PeersSpec ManagerModel ManagerSpec PendingModel ConnModel ClientModel TorrentModel.
Import ListNotations.
Set Implicit Arguments.

(** A message an ordinary seeding peer sends about a torrent of [n] pieces. *)
Definition seeder_message (n : nat) (w : message) : Prop :=
  match w with
  | KeepAlive | Choke | Unchoke | Interested | NotInterested => True
  | Have i => (i < N.of_nat n)%N
  | Bitfield d => length d = (n + 7) / 8
  | _ => False
  end.
(** A history with such messages only, and without connections breaking. *)
Definition well_behaved (n : nat) (e : rev) : Prop :=
  match e with
  | RMsg _ w => seeder_message n w
  | RUnreachable _ => False
  | RTask (ConEnd _) | RTask (End_ _) => False
  | _ => True
  end.
(** What the manager and the downloaders do by themselves. *)
Definition own_step (e : rev) : bool := match e with RPick | RAdd | RTask (Turn _ true _) => true | _ => false end.
(** The client has piece [i]. *)
Definition held (s : tor) (i : nat) : Prop := exists m, r_mgr s = Some m /\ piece_in (m_local m) i.
(** Peer [p] has announced piece [i] and does not choke us. *)
Definition offers (s : tor) (p : addr) (i : nat) : Prop :=
  exists m inf, r_mgr s = Some m /\ In (p, inf) (m_active m) /\ pi_choking inf = false /\ piece_in (pi_haves inf) i.
(** States of the program. *)
Definition tor_reach (sha1 : bytes -> ID) (checked : bool) (hs : list ID) (s : tor) : Prop :=
  exists pl s0 es tr, tor_new hs pl = Val s0 /\ tor_run sha1 checked s0 es = Some (s, tr).
(** The steps left: three for each round and what is in the command queues. *)
Definition work (s : tor) : nat :=
  (match r_phase s with Waiting => 0 | Picking n => 3 * n + 1 | Adding n _ _ => 3 * n + 2 end) + list_sum (map (fun x => length (t_cmds x)) (c_tasks (r_con s))).
