(** Vocabulary for the properties of the connection handle and its downloaders. *)
From Coq Require Import List NArith Bool Arith.
From Verif Require Import Base Assoc IdModel WireModel PendingModel ConnModel.
Import ListNotations.
Set Implicit Arguments.

(** A block request put in a peer's queue. *)
Definition is_request (x : nat * out) : bool := match snd x with ToPeer (Request _) => true | _ => false end.
Definition is_finished (x : nat * out) : bool := match snd x with Finished _ _ => true | _ => false end.
(** Peer [p] choked us (or never unchoked us) at the end of [h]: the last of
    its choke messages. *)
Definition choked_by (p : addr) (h : list ev) : bool :=
  fold_left (fun c e => match e with Received q b => if addr_eqb q p then b else c | _ => c end) h true.
(** Task [t] of peer [p] has been told to fetch piece [k]. *)
Definition assigned (s : con) (t k : nat) : Prop :=
  exists x d, nth_error (c_tasks s) t = Some x /\ t_dl x = Some d /\
    (In k (keys (dl_pieces d)) \/ exists h, In (StartPiece h k) (t_cmds x)).
