(** Model of /repo/src/peers/connection/connection_handle.rs: the handle the
    torrent manager uses, the downloader tasks it spawns and the pieces they
    share. The parts of a downloader's turn are those of PendingModel.v; here the
    mutex around the shared pieces can be poisoned and tasks can die. *)
From Coq Require Import List NArith ZArith Lia Bool Arith.
From Verif Require Import Base Assoc BitmapModel IdModel WireModel PendingModel.
Import ListNotations.
Set Implicit Arguments.

(** downloader.rs:20-24 *)
Inductive cmd := StartPiece (h : ID) (i : nat) | StopPiece (i : nat).
Definition cmd_event (c : cmd) : dl_event := match c with StartPiece h i => EvStart h i | StopPiece i => EvStop i end.

(** A spawned downloader (connection_handle.rs:108-147) with its two queues.
    [t_dl = None]: ended or panicked. [t_open]: its [PeerConnection] is still in
    the map (else shutdown was sent and the command sender dropped). [t_con]: the
    connection task lives. [t_choking], [t_chokes]: its [UnchokeWaiter]. *)
Record task := mk_task {
  t_peer : addr; t_dl : option dl; t_cmds : list cmd; t_blocks : list piece_msg;
  t_open : bool; t_con : bool; t_choking : bool; t_chokes : list bool }.
(** The torrent manager: between two calls, inside [download_piece] after the
    command was sent, or panicked. *)
Inductive mstate := MIdle | MAdd (i : nat) | MDead.
(** connection_handle.rs:19-27; a second [connect] after a [disconnect] makes a
    new task beside the old one, so tasks are numbered. *)
Record con := mk_con { c_pp : pp; c_poisoned : bool; c_map : list (addr * nat); c_tasks : list task; c_main : mstate }.

(** connection_handle.rs:17 *)
Definition MESSAGE_CHANNEL_BUFFER : nat := 32.
(** connection_handle.rs:36-40 *)
Definition task_new (p : addr) : task := mk_task p (Some dl_init) [] [] true true true [].
(** connection_handle.rs:88-105 *)
Definition con_new (piece_length : nat) : res con := rmap (fun s => mk_con s false [] [] MIdle) (pp_new piece_length).

(** connection_handle.rs:51-59: [send] makes a future that is dropped without
    being polled, so the queue stays as it is. *)
Definition choker_send (choke : bool) (q : list bool) : list bool := q.
(** connection_handle.rs:66-85 [wait_if_choking]: what is left when it returns;
    [None]: waits for a message that is not there. Called nowhere. *)
Fixpoint wait_if_choking (choking : bool) (q : list bool) : option (bool * list bool) :=
  match q with
  | [] => if choking then None else Some (false, [])
  | c :: q' => wait_if_choking c q'
  end.

Definition omget := @mget addr nat addr_eqb.
Definition omset := @mset addr nat addr_eqb.
Definition omdel := @mdel addr nat addr_eqb.
Definition with_task (s : con) (t : nat) (x : task) : con := mk_con (c_pp s) (c_poisoned s) (c_map s) (upd (c_tasks s) t x) (c_main s).

(** What comes out: a message for the peer, or a finished piece for the manager. *)
Inductive out := ToPeer (m : message) | Finished (i : nat) (d : list bytes).

(** connection_handle.rs:193-228: the messages there is a function for. *)
Definition sendable (m : message) : bool := match m with Request _ | KeepAlive => false | _ => true end.

Section Conn.
  Variable sha1 : bytes -> ID.
  Variable checked : bool.

  (** downloader.rs:130-158: the block that [foo] hands to [add_block_data], if
      it gets there and the size is right, so that the mutex is taken. *)
  Definition wants_lock (s : pp) (d : dl) (e : dl_event) : option (nat * nat * bytes) :=
    match e with
    | EvBlock b =>
      let begin_ := N.to_nat (pm_begin b) in
      if negb (begin_ mod BLOCK_SIZE =? 0) then None
      else match dmget (N.to_nat (pm_index b)) (dl_pieces d), remove_block (begin_ / BLOCK_SIZE) (dl_blocks d) with
           | Some _, Some _ => if pp_check_bounds s (begin_ / BLOCK_SIZE) (pm_block b) then Some (N.to_nat (pm_index b), begin_ / BLOCK_SIZE, pm_block b) else None
           | _, _ => None
           end
    | _ => None
    end.
  (** The end of a turn: alive with new state, or dead, poisoning the mutex if the
      panic came while it was locked. *)
  Inductive tres := Alive (s : pp) (d : dl) (fin : list (nat * list bytes)) (reqs : list request) | Died (poison : bool).
  (** downloader.rs:89-127, one turn of the loop. *)
  Definition dl_turn (poisoned : bool) (now : nat) (s : pp) (d : dl) (e : dl_event) : tres :=
    let stuck := match wants_lock s d e with
      | None => None
      | Some (i, b, data) =>
        if poisoned then Some false
        else match pp_add_block checked s i b data with Panic => Some true | _ => None end
      end in
    match stuck, dl_handle sha1 checked s d e with
    | Some p, _ => Died p
    | None, Val (s1, d1, fin) =>
      if dl_counter d1 mod (ACTIVE_BLOCKS_PER_PEER / 3) =? 0 then
        if poisoned then Died false
        else match pp_take s1 now (keys (dl_pieces d1)) (dl_blocks d1) (dl_cap d1) with
             | Val (s2, blocks, cap) => Alive s2 (mk_dl (dl_pieces d1) (snd (dl_send blocks)) cap (dl_counter d1 + 1)) fin (fst (dl_send blocks))
             | _ => Died true
             end
      else Alive s1 (mk_dl (dl_pieces d1) (snd (dl_send (dl_blocks d1))) (dl_cap d1) (dl_counter d1 + 1)) fin (fst (dl_send (dl_blocks d1)))
    | None, _ => Died false
    end.

  (** What can happen. The manager's calls: [Connect], [Disconnect], [Received]
      (a choke or unchoke passing through [recv]), [Download] and its second half
      [AddPiece], [SendMsg] (any of lines 193-236). In a task: a block arrives, the
      connection ends, the loop takes a turn (on a command or on a block), the
      loop ends. *)
  Inductive ev :=
  | Connect (p : addr) | Disconnect (p : addr) | Received (p : addr) (choke : bool)
  | Download (p : addr) (i : nat) (h : ID) | AddPiece | SendMsg (p : addr) (m : message)
  | BlockIn (t : nat) (b : piece_msg) | ConEnd (t : nat) | Turn (t : nat) (on_cmd : bool) (now : nat) | End_ (t : nat).

  (** The result of one turn of task [t]. *)
  Definition after_turn (s : con) (t : nat) (x : task) (r : tres) : con * list (nat * out) :=
    match r with
    | Died p =>
      (mk_con (c_pp s) (c_poisoned s || p) (c_map s) (upd (c_tasks s) t (mk_task (t_peer x) None (t_cmds x) (t_blocks x) (t_open x) (t_con x) (t_choking x) (t_chokes x))) (c_main s), [])
    | Alive q d fin reqs =>
      (mk_con q (c_poisoned s) (c_map s) (upd (c_tasks s) t (mk_task (t_peer x) (Some d) (t_cmds x) (t_blocks x) (t_open x) (t_con x) (t_choking x) (t_chokes x))) (c_main s),
       map (fun f => (t, Finished (fst f) (snd f))) fin ++ (if t_con x then map (fun r => (t, ToPeer (Request r))) reqs else []))
    end.
  (** [None]: cannot happen now. *)
  Definition con_step (s : con) (e : ev) : option (con * list (nat * out)) :=
    match e with
    | Connect p => (* 107-147 *)
      match c_main s with
      | MIdle => match omget p (c_map s) with
                 | Some _ => Some (s, [])
                 | None => Some (mk_con (c_pp s) (c_poisoned s) (omset p (length (c_tasks s)) (c_map s)) (c_tasks s ++ [task_new p]) MIdle, [])
                 end
      | _ => None
      end
    | Disconnect p => (* 149-155 *)
      match c_main s with
      | MIdle => match omget p (c_map s) with
                 | None => Some (s, [])
                 | Some t => match nth_error (c_tasks s) t with
                   | None => None
                   | Some x => Some (mk_con (c_pp s) (c_poisoned s) (omdel p (c_map s)) (upd (c_tasks s) t (mk_task (t_peer x) (t_dl x) (t_cmds x) (t_blocks x) false (t_con x) (t_choking x) (t_chokes x))) MIdle, [])
                   end
                 end
      | _ => None
      end
    | Received p c => (* 157-170 *)
      match c_main s with
      | MIdle => match omget p (c_map s) with
                 | None => Some (s, [])
                 | Some t => match nth_error (c_tasks s) t with
                   | None => None
                   | Some x => Some (with_task s t (mk_task (t_peer x) (t_dl x) (t_cmds x) (t_blocks x) (t_open x) (t_con x) (t_choking x) (choker_send c (t_chokes x))), [])
                   end
                 end
      | _ => None
      end
    | Download p i h => (* 172-185: an error if not connected or if the task is gone *)
      match c_main s with
      | MIdle => match omget p (c_map s) with
                 | None => Some (s, [])
                 | Some t => match nth_error (c_tasks s) t with
                   | None => None
                   | Some x =>
                     match t_dl x with
                     | None => Some (s, [])
                     | Some _ =>
                       if MESSAGE_CHANNEL_BUFFER <=? length (t_cmds x) then None
                       else Some (mk_con (c_pp s) (c_poisoned s) (c_map s) (upd (c_tasks s) t (mk_task (t_peer x) (t_dl x) (t_cmds x ++ [StartPiece h i]) (t_blocks x) (t_open x) (t_con x) (t_choking x) (t_chokes x))) (MAdd i), [])
                     end
                   end
                 end
      | _ => None
      end
    | AddPiece => (* 187, pending_pieces.rs:75-89; its error is ignored *)
      match c_main s with
      | MAdd i =>
        if c_poisoned s then Some (mk_con (c_pp s) true (c_map s) (c_tasks s) MDead, [])
        else match pp_add_piece (c_pp s) i with
             | Val q => Some (mk_con q false (c_map s) (c_tasks s) MIdle, [])
             | Fail => Some (mk_con (c_pp s) false (c_map s) (c_tasks s) MIdle, [])
             | Panic => Some (mk_con (c_pp s) true (c_map s) (c_tasks s) MDead, [])
             end
      | _ => None
      end
    | SendMsg p m => (* 193-236 *)
      match c_main s with
      | MIdle => if negb (sendable m) then None else match omget p (c_map s) with
                 | None => Some (s, [])
                 | Some t => match nth_error (c_tasks s) t with
                   | None => None
                   | Some x => Some (s, if t_con x then [(t, ToPeer m)] else [])
                   end
                 end
      | _ => None
      end
    | BlockIn t b => (* connection_manager.rs:152-154 *)
      match nth_error (c_tasks s) t with
      | Some x => if t_con x && (length (t_blocks x) <? MESSAGE_CHANNEL_BUFFER)
                  then Some (with_task s t (mk_task (t_peer x) (t_dl x) (t_cmds x) (t_blocks x ++ [b]) (t_open x) (t_con x) (t_choking x) (t_chokes x)), [])
                  else None
      | None => None
      end
    | ConEnd t => (* connection_manager.rs:50-80 *)
      match nth_error (c_tasks s) t with
      | Some x => Some (with_task s t (mk_task (t_peer x) (t_dl x) (t_cmds x) (t_blocks x) (t_open x) false (t_choking x) (t_chokes x)), [])
      | None => None
      end
    | Turn t on_cmd now => (* downloader.rs:89-127 *)
      match nth_error (c_tasks s) t with
      | None => None
      | Some x =>
        match t_dl x with
        | None => None
        | Some d =>
          if on_cmd then
            match t_cmds x with
            | [] => None
            | c :: cs => Some (after_turn s t (mk_task (t_peer x) (t_dl x) cs (t_blocks x) (t_open x) (t_con x) (t_choking x) (t_chokes x))
                                          (dl_turn (c_poisoned s) now (c_pp s) d (cmd_event c)))
            end
          else
            match t_blocks x with
            | [] => None
            | b :: bs => Some (after_turn s t (mk_task (t_peer x) (t_dl x) (t_cmds x) bs (t_open x) (t_con x) (t_choking x) (t_chokes x))
                                          (dl_turn (c_poisoned s) now (c_pp s) d (EvBlock b)))
            end
        end
      end
    | End_ t => (* downloader.rs:91, 93, 102: shutdown, or a closed channel (panic) *)
      match nth_error (c_tasks s) t with
      | None => None
      | Some x =>
        match t_dl x with
        | None => None
        | Some _ =>
          if negb (t_open x) || negb (t_con x) && (length (t_blocks x) =? 0)
          then Some (with_task s t (mk_task (t_peer x) None (t_cmds x) (t_blocks x) (t_open x) (t_con x) (t_choking x) (t_chokes x)), [])
          else None
        end
      end
    end.
  (** A history with what came out at each event. *)
  Fixpoint con_run (s : con) (h : list ev) : option (con * list (ev * list (nat * out))) :=
    match h with
    | [] => Some (s, [])
    | e :: h' => match con_step s e with
                 | None => None
                 | Some (s', o) => option_map (fun r => (fst r, (e, o) :: snd r)) (con_run s' h')
                 end
    end.
End Conn.
