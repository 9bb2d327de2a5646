(** Model of the HTTP tracker client: /repo/src/tracker/announce.rs (the
    announce URL), /repo/src/tracker/response.rs (reading the answer) and
    /repo/src/tracker/tracker_manager.rs (one session per tracker). *)
From Coq Require Import Strings.String.
From Coq Require Import List NArith ZArith Lia Bool Arith.
From Coq Require Import Init.Byte.
From Verif Require Import Base IdModel WireModel TableModel BencodeModel KrpcModel.
Import ListNotations.
Set Implicit Arguments.

(** ** announce.rs *)
(** [urlencoding::encode_binary] (crate version 2, /repo/Cargo.toml; third-party,
    modelled from its documentation): letters, digits and [-_.~] are kept, every
    other byte becomes [%XX] with upper-case hexadecimal digits. *)
Definition unreserved (b : byte) : bool :=
  in_range 0x30 0x39 b || in_range 0x41 0x5a b || in_range 0x61 0x7a b ||
  (b2n b =? 0x2d)%N || (b2n b =? 0x2e)%N || (b2n b =? 0x5f)%N || (b2n b =? 0x7e)%N.
Definition hex_upper (n : N) : byte := if (n <? 10)%N then n2b (0x30 + n) else n2b (0x41 + (n - 10)).
Definition encode_byte (b : byte) : bytes :=
  if unreserved b then [b] else [x25; hex_upper (b2n b / 16); hex_upper (b2n b mod 16)].
Definition encode_binary (s : bytes) : bytes := flat_map encode_byte s.

(** announce.rs:3-8 *)
Inductive announce_event := Started | Stopped | Completed.
(** announce.rs:9-22 *)
Record announce := mk_announce {
  a_url : bytes;
  a_info_hash : ID;
  a_peer_id : ID;
  a_port : N;
  a_uploaded : N;
  a_downloaded : N;
  a_left : N;
  a_compact : bool;
  a_no_peer_id : bool;
  a_event : option announce_event;
  a_tracker_id : option bytes
}.
Definition flag (b : bool) : N := if b then 1%N else 0%N.
(** announce.rs:25-69; [u64::to_string] is [enc_num] *)
Definition as_url (a : announce) : bytes :=
  a_url a ++
  str "?info_hash=" ++ encode_binary (a_info_hash a) ++
  str "&peer_id=" ++ encode_binary (a_peer_id a) ++
  str "&port=" ++ enc_num (a_port a) ++
  str "&uploaded=" ++ enc_num (a_uploaded a) ++
  str "&downloaded=" ++ enc_num (a_downloaded a) ++
  str "&left=" ++ enc_num (a_left a) ++
  str "&compact=" ++ enc_num (flag (a_compact a)) ++
  (if negb (a_compact a) then str "&no_peer_id=" ++ enc_num (flag (a_no_peer_id a)) else []) ++
  match a_event a with
  | Some e => str "&event=" ++ match e with Started => str "started" | Stopped => str "stopped" | Completed => str "completed" end
  | None => []
  end ++
  match a_tracker_id a with
  | Some t => str "&trackerid=" ++ t
  | None => []
  end.

(** ** response.rs *)
(** response.rs:9-18 *)
Record response := mk_response {
  r_warning : option bytes;
  r_interval : N;
  r_min_interval : option N;
  r_tracker_id : option bytes;
  r_complete : N;
  r_incomplete : N;
  r_peers : list addr
}.
(** [slice::chunks_exact]: a shorter rest is left out. *)
Definition chunks_exact {A} (k : nat) (l : list A) : list (list A) := chunks k (firstn (k * (length l / k)) l).
(** [Iterator::filter_map] with [Result::ok] *)
Fixpoint filter_ok {A B} (f : A -> res B) (l : list A) : list B :=
  match l with
  | [] => []
  | x :: t => match f x with Val y => y :: filter_ok f t | _ => filter_ok f t end
  end.
Definition u64_max : N := 18446744073709551615.
(** The variables of response.rs:24-30. *)
Record raw_response := mk_raw {
  w_warning : option bytes;
  w_interval : option N;
  w_min_interval : option N;
  w_tracker_id : option bytes;
  w_complete : option N;
  w_incomplete : option N;
  w_peers : option (list addr)
}.
(** response.rs:55-71 *)
Definition p_peers (v : bval) : res (list addr) :=
  rmap (fun s => filter_ok socketaddr_from_compact_bytes (chunks_exact 6 s)) (p_buf v).
(** response.rs:34-74: one entry. The decoder (bendy) has checked that the keys
    ascend; reading the whole dictionary first and then visiting the entries
    gives the same result, as any error ends in an error. *)
Definition response_entry (w : raw_response) (k : bytes) (v : bval) : res raw_response :=
  let '(mk_raw a b c d e f g) := w in
  if bytes_eqb k (str "warning message") then rmap (fun x => mk_raw (Some x) b c d e f g) (p_string v)
  else if bytes_eqb k (str "interval") then rmap (fun x => mk_raw a (Some x) c d e f g) (p_uint u64_max v)
  else if bytes_eqb k (str "min interval") then rmap (fun x => mk_raw a b (Some x) d e f g) (p_uint u64_max v)
  else if bytes_eqb k (str "tracker id") then rmap (fun x => mk_raw a b c (Some x) e f g) (p_string v)
  else if bytes_eqb k (str "complete") then rmap (fun x => mk_raw a b c d (Some x) f g) (p_uint u64_max v)
  else if bytes_eqb k (str "incomplete") then rmap (fun x => mk_raw a b c d e (Some x) g) (p_uint u64_max v)
  else if bytes_eqb k (str "peers") then rmap (fun x => mk_raw a b c d e f (Some x)) (p_peers v)
  else Val w.
Fixpoint response_entries (w : raw_response) (d : list (bytes * bval)) : res raw_response :=
  match d with
  | [] => Val w
  | (k, v) :: t => rbind (response_entry w k v) (fun w => response_entries w t)
  end.
(** response.rs:23-86 *)
Definition decode_response (v : bval) : res response :=
  match v with
  | BDict d =>
    rbind (response_entries (mk_raw None None None None None None None) d) (fun w =>
    rbind (need (w_interval w)) (fun i =>
    rbind (need (w_complete w)) (fun c =>
    rbind (need (w_incomplete w)) (fun n =>
    rbind (need (w_peers w)) (fun p =>
    Val (mk_response (w_warning w) i (w_min_interval w) (w_tracker_id w) c n p))))))
  | _ => Fail
  end.
(** tracker_manager.rs:160-167: reading the body; what follows the first value
    is ignored. *)
Definition response_from_body (s : bytes) : res response :=
  match decode s with Some (v, _) => decode_response v | None => Fail end.

(** ** tracker_manager.rs *)
(** What one session is started with, tracker_manager.rs:57-68. *)
Record tracker_cfg := mk_cfg {
  c_url : bytes;
  c_info_hash : ID;
  c_peer_id : ID;
  c_port : N;
  c_pieces : N;
  c_piece_length : N
}.
(** [(piece_count - downloaded) * piece_length], tracker_manager.rs:77, 94, 116,
    on u64 with overflow checks (a build without them would wrap around). *)
Definition left_bytes (c : tracker_cfg) (downloaded : N) : res N :=
  if (c_pieces c <? downloaded)%N then Panic
  else let n := ((c_pieces c - downloaded) * c_piece_length c)%N in
       if (u64_max <? n)%N then Panic else Val n.
(** Where the session waits.
    - [Asking]: a request is out, tracker_manager.rs:131-136;
    - [Resting]: it failed, 143-148;
    - [Idle iv]: it was answered with interval [iv], 88-114;
    - [Ended]: the task has returned;
    - [Crashed]: the task has panicked. *)
Inductive tphase := Asking | Resting | Idle (interval : N) | Ended | Crashed.
(** [unread] counts the messages waiting in the broadcast receiver
    (capacity 32, /repo/src/main.rs:80); [since] is when the phase began. *)
Record tsession := mk_session { t_phase : tphase; t_ann : announce; t_unread : nat; t_since : N }.
Inductive tevent :=
| Answer (r : response)          (* the request succeeded and was decoded *)
| Failure                        (* any error of send_request, time-out included *)
| Elapsed                        (* the sleep of the current phase is over *)
| Completion                     (* someone sends on the completion channel *)
| CompletionRead                 (* the session reads that channel *)
| Shutdown.                      (* the session reads the shutdown signal *)
(** What the session does: requests and addresses handed to the peer list. *)
Inductive tout := Get (a : announce) | Found (l : list addr).
Definition RETRY_SECS : N := 64.
Definition COMPLETION_CAP : nat := 32.
Definition crashed (s : tsession) (now : N) : tsession := mk_session Crashed (t_ann s) (t_unread s) now.
Definition with_event (a : announce) (e : option announce_event) (left : N) : announce :=
  mk_announce (a_url a) (a_info_hash a) (a_peer_id a) (a_port a) (a_uploaded a) (a_downloaded a) left
    (a_compact a) (a_no_peer_id a) e (a_tracker_id a).
Definition with_tracker_id (a : announce) (t : option bytes) : announce :=
  mk_announce (a_url a) (a_info_hash a) (a_peer_id a) (a_port a) (a_uploaded a) (a_downloaded a) (a_left a)
    (a_compact a) (a_no_peer_id a) (a_event a) t.
(** tracker_manager.rs:70-82 and the first call of [contact_tracker] *)
Definition first_announce (c : tracker_cfg) (left : N) : announce :=
  mk_announce (c_url c) (c_info_hash c) (c_peer_id c) (c_port c) 0 0 left true true (Some Started) None.
Definition open_session (c : tracker_cfg) (now downloaded : N) : res (tsession * list tout) :=
  rmap (fun l => (mk_session Asking (first_announce c l) 0 now, [Get (first_announce c l)])) (left_bytes c downloaded).
(** tracker_manager.rs:99-101, 103-106, 116 and then [contact_tracker] *)
Definition announce_again (c : tracker_cfg) (s : tsession) (now downloaded : N) (unread : nat) (e : option announce_event)
    : tsession * list tout :=
  match left_bytes c downloaded with
  | Val l => let a := with_event (t_ann s) e l in (mk_session Asking a unread now, [Get a])
  | _ => (mk_session Crashed (t_ann s) unread now, [])
  end.
(** One event at time [now], the shared counter of downloaded pieces standing
    at [downloaded]; [None] if the event cannot happen in this phase. *)
Definition session_step (c : tracker_cfg) (s : tsession) (now downloaded : N) (e : tevent) : option (tsession * list tout) :=
  match e, t_phase s with
  | Completion, (Asking | Resting | Idle _) => Some (mk_session (t_phase s) (t_ann s) (S (t_unread s)) (t_since s), [])
  (* 138-141, then 85-89 *)
  | Answer r, Asking =>
    let a := match a_tracker_id (t_ann s), r_tracker_id r with
             | None, Some t => with_tracker_id (t_ann s) (Some t)
             | _, _ => t_ann s
             end in
    Some (mk_session (Idle (r_interval r)) a (t_unread s) now, [Found (r_peers r)])
  (* 140 *)
  | Failure, Asking => Some (mk_session Resting (t_ann s) (t_unread s) now, [])
  (* 147: the same URL again *)
  | Elapsed, Resting =>
    if (t_since s + RETRY_SECS <=? now)%N then Some (mk_session Asking (t_ann s) (t_unread s) now, [Get (t_ann s)]) else None
  (* 99-101 *)
  | Elapsed, Idle iv =>
    if (t_since s + iv <=? now)%N then Some (announce_again c s now downloaded (t_unread s) None) else None
  (* 102-113: a receiver that fell behind gets an error first *)
  | CompletionRead, Idle _ =>
    if t_unread s =? 0 then None
    else if COMPLETION_CAP <? t_unread s then Some (mk_session Ended (t_ann s) COMPLETION_CAP now, [])
    else Some (announce_again c s now downloaded (t_unread s - 1) (Some Completed))
  (* 132-134, 144-146 *)
  | Shutdown, (Asking | Resting) => Some (mk_session Ended (t_ann s) (t_unread s) now, [])
  (* 92-98 *)
  | Shutdown, Idle _ =>
    match left_bytes c downloaded with
    | Val l => let a := with_event (t_ann s) (Some Stopped) l in Some (mk_session Ended a (t_unread s) now, [Get a])
    | _ => Some (crashed s now, [])
    end
  | _, _ => None
  end.
(** A session as it unfolds: the time, the counter, what happened and what the
    session did. *)
Record tentry := mk_entry { e_now : N; e_downloaded : N; e_event : tevent; e_outs : list tout }.
Inductive session_run (c : tracker_cfg) : tsession -> N -> list tentry -> tsession -> Prop :=
| sr_nil : forall s now, session_run c s now [] s
| sr_cons : forall s now now' d e s1 outs tr s2, (now <= now')%N ->
    session_step c s now' d e = Some (s1, outs) -> session_run c s1 now' tr s2 ->
    session_run c s now (mk_entry now' d e outs :: tr) s2.
