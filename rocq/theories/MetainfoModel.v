(** Model of /repo/src/transcoding/metainfo.rs: reading a torrent file. SHA-1 is
    a parameter. *)
From Coq Require Import Strings.String.
From Coq Require Import List NArith ZArith Lia Bool Arith.
From Coq Require Import Init.Byte.
From Verif Require Import Base IdModel BencodeModel KrpcModel TrackerModel.
Import ListNotations.
Set Implicit Arguments.

(** metainfo.rs:37-41 *)
Record mfile := mk_mfile { mf_path : list bytes; mf_length : N }.
(** metainfo.rs:31-35 *)
Inductive fmode := Single (length : N) | Multi (files : list mfile).
(** metainfo.rs:23-29 *)
Record metainfo := mk_metainfo { i_name : bytes; i_piece_length : N; i_pieces : list ID; i_mode : fmode }.
(** metainfo.rs:43-47 *)
Inductive tracker_addr := Http (url : bytes) | Udp (url : bytes).
(** metainfo.rs:16-21; the hash set is a list without repetition, its order has
    no meaning. *)
Record torrent := mk_torrent { t_info : metainfo; t_info_hash : ID; t_announce : list tracker_addr }.

Fixpoint starts_with (p s : bytes) : bool :=
  match p, s with
  | [], _ => true
  | x :: p, y :: s => Byte.eqb x y && starts_with p s
  | _, [] => false
  end.
(** metainfo.rs:239-248 *)
Definition tracker_new (addr : bytes) : res tracker_addr :=
  if starts_with (str "udp") addr then Val (Udp addr)
  else if starts_with (str "http") addr then Val (Http addr)
  else Fail.
Definition tracker_eqb (a b : tracker_addr) : bool :=
  match a, b with
  | Http x, Http y | Udp x, Udp y => bytes_eqb x y
  | _, _ => false
  end.
(** [HashSet::insert] *)
Definition hs_insert (x : tracker_addr) (l : list tracker_addr) : list tracker_addr :=
  if existsb (tracker_eqb x) l then l else x :: l.
(** metainfo.rs:379-396. The bytes are reinterpreted in place as 20-byte
    identifiers; that this is sound, and what the allocator is told, is in
    MemModel.v. *)
Definition deserialize_pieces_field (raw : bytes) : res (list ID) :=
  if (length raw =? 0) || negb (length raw mod ID_LEN =? 0) then Fail
  else Val (chunks ID_LEN raw).

(** metainfo.rs:352-377 *)
Fixpoint file_entries (path : option (list bytes)) (len : option N) (d : list (bytes * bval)) : res (option (list bytes) * option N) :=
  match d with
  | [] => Val (path, len)
  | (k, v) :: t =>
    if bytes_eqb k (str "path") then rbind (p_list p_string v) (fun x => file_entries (Some x) len t)
    else if bytes_eqb k (str "length") then rbind (p_uint u64_max v) (fun x => file_entries path (Some x) t)
    else file_entries path len t
  end.
Definition decode_file (v : bval) : res mfile :=
  match v with
  | BDict d => rbind (file_entries None None d) (fun r =>
      rbind (need (fst r)) (fun p => rbind (need (snd r)) (fun l => Val (mk_mfile p l))))
  | _ => Fail
  end.
(** The variables of metainfo.rs:309-312. *)
Record raw_info := mk_rawi { ri_piece_length : option N; ri_pieces : option (list ID); ri_mode : option fmode; ri_name : option bytes }.
(** metainfo.rs:316-340: one entry *)
Definition info_entry (w : raw_info) (k : bytes) (v : bval) : res raw_info :=
  let '(mk_rawi a b c d) := w in
  if bytes_eqb k (str "name") then rmap (fun x => mk_rawi a b c (Some x)) (p_string v)
  else if bytes_eqb k (str "pieces") then rbind (p_buf v) (fun raw => rmap (fun x => mk_rawi a (Some x) c d) (deserialize_pieces_field raw))
  else if bytes_eqb k (str "length") then rmap (fun x => mk_rawi a b (Some (Single x)) d) (p_uint u64_max v)
  else if bytes_eqb k (str "piece length") then rmap (fun x => mk_rawi (Some x) b c d) (p_uint u64_max v)
  else if bytes_eqb k (str "files") then rmap (fun x => mk_rawi a b (Some (Multi x)) d) (p_list decode_file v)
  else Val w.
Fixpoint info_entries (w : raw_info) (d : list (bytes * bval)) : res raw_info :=
  match d with
  | [] => Val w
  | (k, v) :: t => rbind (info_entry w k v) (fun w => info_entries w t)
  end.
(** metainfo.rs:305-350 *)
Definition decode_info (v : bval) : res metainfo :=
  match v with
  | BDict d =>
    rbind (info_entries (mk_rawi None None None None) d) (fun w =>
    rbind (need (ri_piece_length w)) (fun l =>
    rbind (need (ri_pieces w)) (fun p =>
    rbind (need (ri_name w)) (fun n =>
    rbind (need (ri_mode w)) (fun m => Val (mk_metainfo n l p m))))))
  | _ => Fail
  end.

Section Torrent.
Context (sha1 : bytes -> ID).
Definition insert_url (l : list tracker_addr) (url : bytes) : list tracker_addr :=
  match tracker_new url with Val x => hs_insert x l | _ => l end.
(** The variables of metainfo.rs:255-257. *)
Record raw_torrent := mk_rawt { rt_info : option metainfo; rt_hash : option ID; rt_announce : list tracker_addr }.
(** metainfo.rs:261-296: one entry. The bytes of the info dictionary are those it
    was read from: [enc] of its value, as only canonical encodings are read
    (BencodeProps.C39_canonical); they are decoded again. *)
Definition torrent_entry (w : raw_torrent) (k : bytes) (v : bval) : res raw_torrent :=
  let '(mk_rawt a b c) := w in
  if bytes_eqb k (str "info") then
    match v with
    | BDict _ =>
      let raw := enc v in
      match decode raw with
      | Some (v', _) => rmap (fun i => mk_rawt (Some i) (Some (sha1 raw)) c) (decode_info v')
      | None => Fail
      end
    | _ => Fail
    end
  else if bytes_eqb k (str "announce") then rmap (fun u => mk_rawt a b (insert_url c u)) (p_string v)
  else if bytes_eqb k (str "announce-list") then
    rmap (fun tiers => mk_rawt a b (fold_left insert_url (concat tiers) c)) (p_list (p_list p_string) v)
  else Val w.
Fixpoint torrent_entries (w : raw_torrent) (d : list (bytes * bval)) : res raw_torrent :=
  match d with
  | [] => Val w
  | (k, v) :: t => rbind (torrent_entry w k v) (fun w => torrent_entries w t)
  end.
(** metainfo.rs:251-303 *)
Definition decode_torrent (v : bval) : res torrent :=
  match v with
  | BDict d =>
    rbind (torrent_entries (mk_rawt None None []) d) (fun w =>
    match rt_announce w with
    | [] => Fail
    | _ => rbind (need (rt_info w)) (fun i => rbind (need (rt_hash w)) (fun h => Val (mk_torrent i h (rt_announce w))))
    end)
  | _ => Fail
  end.
(** metainfo.rs:49-51; [EXPECTED_RECURSION_DEPTH] (252) bounds the nesting. *)
Definition TORRENT_DEPTH : nat := 10.
Definition torrent_from_buf (s : bytes) : res torrent :=
  match decode_at TORRENT_DEPTH s with Some (v, _) => decode_torrent v | None => Fail end.
(** metainfo.rs:83-91 *)
Definition blocks_hash (blocks : list bytes) : ID := sha1 (concat blocks).
End Torrent.
(** metainfo.rs:70-77 *)
Definition http_trackers (t : torrent) : list bytes :=
  flat_map (fun a => match a with Http u => [u] | Udp _ => [] end) (t_announce t).
(** metainfo.rs:79-81 *)
Definition count_pieces (t : torrent) : nat := length (i_pieces (t_info t)).
(** metainfo.rs:230-236; a sum beyond u64 panics in a build with overflow
    checks. *)
Definition sum_lengths (l : list mfile) : res N :=
  fold_left (fun acc f => rbind acc (fun n => if (u64_max <? n + mf_length f)%N then Panic else Val (n + mf_length f)%N)) l (Val 0%N).
Definition info_length (i : metainfo) : res N :=
  match i_mode i with Single n => Val n | Multi l => sum_lengths l end.
