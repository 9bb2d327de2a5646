(** The torrent manager together with the connection handle and the downloaders
    it drives: /repo/src/torrent_manager.rs:84-184 (ManagerModel.v) on top of
    /repo/src/peers/connection/connection_handle.rs (ConnModel.v). A tick of the
    manager is taken apart at its two waiting points, so that the downloaders run
    in between. Not here: sockets and handshakes (ClientModel.v); what the peers
    send is any list of messages. *)
From Coq Require Import List NArith ZArith Lia Bool Arith.
From Verif Require Import Base Assoc BitmapModel IdModel WireModel PeersModel PeersSpec ManagerModel PendingModel ConnModel ClientModel.
Import ListNotations.
Set Implicit Arguments.

(** Where the manager is: at the [select!] (torrent_manager.rs:121-127); in the
    loop of lines 153-160 with [n] rounds left; or in [download_piece] between
    the command and [add_piece] (connection_handle.rs:180-187). *)
Inductive phase := Waiting | Picking (n : nat) | Adding (n : nat) (p : addr) (i : nat).
(** [r_mgr = None]: the manager panicked. [r_tab]: the table of peers it shares
    with trackers and DHT. [r_fin]: finished pieces on the way to the manager. *)
Record tor := mk_tor { r_mgr : option mgr; r_tab : peers; r_con : con; r_phase : phase; r_fin : list (addr * nat * list bytes) }.

(** torrent_manager.rs:83-113 *)
Definition tor_new (hashes : list ID) (piece_length : nat) : res tor :=
  rbind (m_init hashes) (fun m => rmap (fun c => mk_tor (Some m) [] c Waiting []) (con_new piece_length)).

(** A panic of the manager drops the handle, and with it the senders every task
    listens to (connection_handle.rs:29-34). *)
Definition task_closed (x : task) : task := mk_task (t_peer x) (t_dl x) (t_cmds x) (t_blocks x) false (t_con x) (t_choking x) (t_chokes x).
Definition con_dropped (c : con) : con := mk_con (c_pp c) (c_poisoned c) [] (map task_closed (c_tasks c)) MDead.
Definition tor_dead (s : tor) (c : con) : tor := mk_tor None (r_tab s) (con_dropped c) Waiting [].

(** [RTable]: a tracker or the DHT uses the shared table. [RMsg]: the manager
    takes a message that came from a peer. [RFin]: it takes a finished piece.
    [RTick]: its interval fires. [RPick], [RAdd]: it goes on with the tick.
    [RTask]: something in a task. [ROrder]: the maps are walked in another order. *)
Inductive rev :=
| RTable (o : qop) | RMsg (p : addr) (m : message) | RUnreachable (p : addr) | RFin | RTick | RPick | RAdd | RTask (e : ev) | ROrder (ks ks' : list nat).
Definition task_event (e : ev) : bool := match e with BlockIn _ _ | ConEnd _ | Turn _ _ _ | End_ _ => true | _ => false end.

Section Torrent.
  Variable sha1 : bytes -> ID.
  Variable checked : bool.
  Notation cstep := (con_step sha1 checked).

  (** torrent_manager.rs:144-149: [connect] for every peer of the batch. *)
  Fixpoint connects (c : con) (os : list mout) : option con :=
    match os with
    | [] => Some c
    | OSpawn p :: t => match cstep c (Connect p) with Some (c', _) => connects c' t | None => None end
    | OStart _ _ _ :: t => connects c t
    end.
  (** connection_handle.rs:157-170 *)
  Definition received (c : con) (p : addr) (m : con_message) : option con :=
    match m with
    | CChoke => option_map fst (cstep c (Received p true))
    | CUnchoke => option_map fst (cstep c (Received p false))
    | _ => Some c
    end.
  (** torrent_manager.rs:122, 256-300 *)
  Definition take (s : tor) (m : mgr) (p : addr) (c : con_message) : option (tor * list (nat * out)) :=
    match received (r_con s) p c with
    | None => None
    | Some k => match handle_message m p c with
                | Val m' => Some (mk_tor (Some m') (r_tab s) k Waiting (r_fin s), [])
                | _ => Some (tor_dead s k, [])
                end
    end.
  (** The pieces a turn finished, for the manager's channel (downloader.rs:160-172). *)
  Definition finished (ts : list task) (o : list (nat * out)) : list (addr * nat * list bytes) :=
    flat_map (fun x => match snd x, nth_error ts (fst x) with Finished i d, Some t => [(t_peer t, i, d)] | _, _ => [] end) o.

  (** [None]: cannot happen now. *)
  Definition tor_step (s : tor) (e : rev) : option (tor * list (nat * out)) :=
    match e with
    | RTable o => match q_step (r_tab s) o with
                  | Val r => Some (mk_tor (r_mgr s) (fst r) (r_con s) (r_phase s) (r_fin s), [])
                  | _ => None
                  end
    | RMsg p w => (* connection_manager.rs:145-173 *)
      match r_mgr s, r_phase s, con_of_message w with
      | Some m, Waiting, Val c => take s m p c
      | _, _, _ => None
      end
    | RUnreachable p => (* connection_manager.rs:59-68 *)
      match r_mgr s, r_phase s with Some m, Waiting => take s m p CUnreachable | _, _ => None end
    | RFin =>
      match r_mgr s, r_phase s, r_fin s with
      | Some m, Waiting, (p, i, d) :: f => take (mk_tor (r_mgr s) (r_tab s) (r_con s) Waiting f) m p (CFinishedPiece i d)
      | _, _, _ => None
      end
    | RTick => (* torrent_manager.rs:123-126, 131-153 *)
      match r_mgr s, r_phase s with
      | Some m, Waiting =>
        match m_refresh m (r_tab s) with
        | Val (m', tab, os) =>
          match connects (r_con s) os with
          | None => None
          | Some k =>
            let w := N.to_nat (bm_weight (m_pieces m')) in
            if MAX_ACTIVE_PIECES <? w then Some (tor_dead (mk_tor (Some m') tab k Waiting (r_fin s)) k, [])
            else Some (mk_tor (Some m') tab k (Picking (MAX_ACTIVE_PIECES - w)) (r_fin s), [])
          end
        | _ => Some (tor_dead s (r_con s), [])
        end
      | _, _ => None
      end
    | RPick => (* torrent_manager.rs:153-168, connection_handle.rs:172-185 *)
      match r_mgr s, r_phase s with
      | Some m, Picking O => Some (mk_tor (Some m) (r_tab s) (r_con s) Waiting (r_fin s), [])
      | Some m, Picking (S n) =>
        match select_piece m with
        | Val None => Some (mk_tor (Some m) (r_tab s) (r_con s) Waiting (r_fin s), [])
        | Val (Some (p, i, h)) =>
          match cstep (r_con s) (Download p i h) with
          | None => None
          | Some (k, _) => Some (mk_tor (Some m) (r_tab s) k (match c_main k with MAdd _ => Adding n p i | _ => Picking n end) (r_fin s), [])
          end
        | _ => Some (tor_dead s (r_con s), [])
        end
      | _, _ => None
      end
    | RAdd => (* connection_handle.rs:187, torrent_manager.rs:170-184 *)
      match r_mgr s, r_phase s with
      | Some m, Adding n p i =>
        match cstep (r_con s) AddPiece with
        | None => None
        | Some (k, _) =>
          match c_main k with
          | MIdle => match mark_ongoing m p i with
                     | Val m' => Some (mk_tor (Some m') (r_tab s) k (Picking n) (r_fin s), [])
                     | _ => Some (tor_dead s k, [])
                     end
          | _ => Some (tor_dead s k, [])
          end
        end
      | _, _ => None
      end
    | RTask e =>
      if task_event e then
        match cstep (r_con s) e with
        | None => None
        | Some (k, o) => Some (mk_tor (r_mgr s) (r_tab s) k (r_phase s) (match r_mgr s with Some _ => r_fin s ++ finished (c_tasks k) o | None => [] end), o)
        end
      else None
    | ROrder ks ks' =>
      Some (mk_tor (option_map (fun m => with_active m (reorder ks (m_active m))) (r_mgr s)) (reorder ks' (r_tab s)) (r_con s) (r_phase s) (r_fin s), [])
    end.
  Fixpoint tor_run (s : tor) (es : list rev) : option (tor * list (rev * list (nat * out))) :=
    match es with
    | [] => Some (s, [])
    | e :: t => match tor_step s e with
                | None => None
                | Some (s', o) => option_map (fun r => (fst r, (e, o) :: snd r)) (tor_run s' t)
                end
    end.
End Torrent.
