(** Model of /repo/src/peers/connection/pending_pieces.rs and
    /repo/src/peers/connection/downloader.rs *)
From Coq Require Import List NArith ZArith Lia Bool Arith.
From Verif Require Import Base Assoc BitmapModel IdModel WireModel.
Import ListNotations.
Set Implicit Arguments.

(** ** PendingPieces *)
(** pending_pieces.rs:17-18 *)
Definition MAX_PIECES_DOWNLOADING : nat := 10.
Definition REQUEST_TIMEOUT_SECS : nat := 7.

(** pending_pieces.rs:40-51; time in seconds. *)
Inductive block :=
| Unbegun
| Pending (target : addr) (time_sent : nat)
| Downloaded (data : bytes).
(** pending_pieces.rs:34-38; [pc_pending] is a usize. *)
Record pc := mk_pc { pc_pending : N; pc_downloaded : nat; pc_data : list block }.
(** pending_pieces.rs:20-26; the shared map behind the mutex. *)
Record pp := mk_pp { pp_piece_length : nat; pp_bpp : nat; pp_owner : option addr; pp_data : list (nat * pc) }.

(** pending_pieces.rs:59-69 *)
Definition pp_new (piece_length : nat) : res pp :=
  rbind (unsigned_ceil_div piece_length BLOCK_SIZE) (fun n => Val (mk_pp piece_length n None [])).
(** pending_pieces.rs:71-73 (called nowhere in the program) *)
Definition pp_set_owner (s : pp) (a : addr) : pp := mk_pp (pp_piece_length s) (pp_bpp s) (Some a) (pp_data s).
Definition pp_with (s : pp) (d : list (nat * pc)) : pp := mk_pp (pp_piece_length s) (pp_bpp s) (pp_owner s) d.
(** pending_pieces.rs:225-236 [Piece::new] *)
Definition pc_new (size : nat) : res pc :=
  rbind (unsigned_ceil_div size BLOCK_SIZE) (fun n => Val (mk_pc 0 0 (repeat Unbegun n))).

Definition pmget := @mget nat pc Nat.eqb.
Definition pmset := @mset nat pc Nat.eqb.
Definition pmdel := @mdel nat pc Nat.eqb.

(** pending_pieces.rs:75-89: [Fail] = "Pending is full". *)
Definition pp_add_piece (s : pp) (idx : nat) : res pp :=
  match pmget idx (pp_data s) with
  | Some _ => Val s
  | None =>
    if MAX_PIECES_DOWNLOADING <=? length (pp_data s) then Fail
    else rbind (pc_new (pp_piece_length s)) (fun p => Val (pp_with s (pmset idx p (pp_data s))))
  end.

(** pending_pieces.rs:192-222 *)
Definition pp_check_bounds (s : pp) (block_idx : nat) (data : bytes) : bool :=
  if pp_bpp s <=? block_idx then false
  else
    let size := if block_idx + 1 =? pp_bpp s then pp_piece_length s mod BLOCK_SIZE else BLOCK_SIZE in
    length data =? size.

(** pending_pieces.rs:53-57 *)
Inductive add_res := ARFailed | ARAdded | ARLast (idx : nat) (data : list bytes).
(** pending_pieces.rs:266-273: panics unless downloaded. *)
Fixpoint blocks_data (l : list block) : res (list bytes) :=
  match l with
  | [] => Val []
  | Downloaded d :: t => rmap (cons d) (blocks_data t)
  | _ :: _ => Panic
  end.
(** [pending -= 1]: with overflow checks (debug builds) zero panics, otherwise
    it wraps. *)
Definition usize_dec (checked : bool) (n : N) : res N :=
  if (n =? 0)%N then (if checked then Panic else Val (2 ^ 64 - 1)%N) else Val (n - 1)%N.
(** pending_pieces.rs:91-124. A panic leaves the mutex poisoned. *)
Definition pp_add_block (checked : bool) (s : pp) (piece_idx block_idx : nat) (data : bytes) : res (pp * add_res) :=
  if negb (pp_check_bounds s block_idx data) then Val (s, ARFailed)
  else
    match pmget piece_idx (pp_data s) with
    | None => Val (s, ARFailed)
    | Some p =>
      if length (pc_data p) <=? block_idx then Panic
      else
        rbind (usize_dec checked (pc_pending p)) (fun pend =>
        let p' := mk_pc pend (pc_downloaded p + 1) (upd (pc_data p) block_idx (Downloaded data)) in
        if pp_bpp s =? pc_downloaded p' then
          rbind (blocks_data (pc_data p')) (fun ds =>
          Val (pp_with s (pmdel piece_idx (pp_data s)), ARLast piece_idx ds))
        else Val (pp_with s (pmset piece_idx p' (pp_data s)), ARAdded))
    end.

(** pending_pieces.rs:257-263 *)
Definition is_expected_from (from : addr) (b : block) : bool :=
  match b with Pending t _ => addr_eqb t from | _ => false end.
(** pending_pieces.rs:128-138 (not called by the program) *)
Definition pp_cancel_pending (s : pp) (from : addr) : pp :=
  pp_with s (map (fun kp => (fst kp,
    mk_pc (pc_pending (snd kp)) (pc_downloaded (snd kp))
      (map (fun b => if is_expected_from from b then Unbegun else b) (pc_data (snd kp))))) (pp_data s)).

(** downloader.rs:26-47 *)
Inductive bstatus := Queued | Requested.
Record block_addr := mk_ba { ba_piece : nat; ba_block : nat; ba_status : bstatus }.
(** downloader.rs:40-46 *)
Definition block_addr_new (p b : nat) : block_addr := mk_ba p b Queued.

(** pending_pieces.rs:245-247, 144-147 *)
Definition is_unbegun (b : block) : bool := match b with Unbegun => true | _ => false end.
(** pending_pieces.rs:249-255 *)
Definition is_expired (now : nat) (b : block) : bool :=
  match b with Pending _ t => REQUEST_TIMEOUT_SECS <? now - t | _ => false end.

(** One pass over one piece: marks matching blocks and lists their addresses
    (pending_pieces.rs:178-187 and the loop body 157-162). [owner.unwrap()]
    panics when no owner is set and a block matches. *)
Fixpoint take_blocks (f : block -> bool) (owner : option addr) (now : nat) (piece i : nat) (l : list block)
  : res (list block * list block_addr) :=
  match l with
  | [] => Val ([], [])
  | b :: t =>
    if f b then
      match owner with
      | None => Panic
      | Some o => rmap (fun r => (Pending o now :: fst r, block_addr_new piece i :: snd r))
                       (take_blocks f owner now piece (S i) t)
      end
    else rmap (fun r => (b :: fst r, snd r)) (take_blocks f owner now piece (S i) t)
  end.
(** pending_pieces.rs:153-163: one filter over the whole map. *)
Fixpoint take_pass (f : block -> bool) (owner : option addr) (now : nat) (pieces : list nat) (m : list (nat * pc))
  : res (list (nat * pc) * list block_addr) :=
  match m with
  | [] => Val ([], [])
  | (k, p) :: t =>
    if existsb (Nat.eqb k) pieces then
      rbind (take_blocks f owner now k 0 (pc_data p)) (fun r =>
      rmap (fun q => ((k, mk_pc (pc_pending p) (pc_downloaded p) (fst r)) :: fst q, snd r ++ snd q))
           (take_pass f owner now pieces t))
    else rmap (fun q => ((k, p) :: fst q, snd q)) (take_pass f owner now pieces t)
  end.
(** A [Vec]: contents and capacity; [push] doubles a full vector (std's
    amortised growth, at least 4). *)
Definition vec_grow (cap len : nat) : nat := if cap =? len then Nat.max 4 (2 * cap) else cap.
Fixpoint vec_extend_cap (cap len n : nat) : nat :=
  match n with O => cap | S k => vec_extend_cap (vec_grow cap len) (S len) k end.
(** pending_pieces.rs:140-169. [pieces.shuffle] does not matter: the list is
    only used for membership. Result: state, buffer, capacity of the buffer. *)
Definition pp_take (s : pp) (now : nat) (pieces : list nat) (buf : list block_addr) (cap : nat)
  : res (pp * list block_addr * nat) :=
  rbind (take_pass is_unbegun (pp_owner s) now pieces (pp_data s)) (fun r1 =>
  let buf1 := buf ++ snd r1 in
  let cap1 := vec_extend_cap cap (length buf) (length (snd r1)) in
  if cap1 =? length buf1 then Val (pp_with s (fst r1), buf1, cap1)
  else
    rbind (take_pass (is_expired now) (pp_owner s) now pieces (fst r1)) (fun r2 =>
    Val (pp_with s (fst r2), buf1 ++ snd r2, vec_extend_cap cap1 (length buf1) (length (snd r2))))).

(** ** Downloader *)
(** message.rs:252-260 [From<BlockAddress> for Request]: [as u32] truncates. *)
Definition request_of (b : block_addr) : request :=
  mk_request (N.of_nat (ba_piece b) mod 2 ^ 32) (N.of_nat (ba_block b * BLOCK_SIZE) mod 2 ^ 32)
             (N.of_nat BLOCK_SIZE mod 2 ^ 32).

(** downloader.rs:18, 84-87 *)
Definition ACTIVE_BLOCKS_PER_PEER : nat := 16.
Record dl := mk_dl { dl_pieces : list (nat * ID); dl_blocks : list block_addr; dl_cap : nat; dl_counter : nat }.
Definition dl_init : dl := mk_dl [] [] ACTIVE_BLOCKS_PER_PEER 0.
Definition dmget := @mget nat ID Nat.eqb.
Definition dmset := @mset nat ID Nat.eqb.
Definition dmdel := @mdel nat ID Nat.eqb.

(** [iter().position(|a| a.block_idx == i)] followed by [remove]. *)
Fixpoint remove_block (i : nat) (l : list block_addr) : option (block_addr * list block_addr) :=
  match l with
  | [] => None
  | b :: t => if ba_block b =? i then Some (b, t)
              else option_map (fun r => (fst r, b :: snd r)) (remove_block i t)
  end.

Section Downloader.
  (** metainfo.rs:83-91 [Torrent::piece_hash]: SHA-1 of the concatenation. *)
  Variable sha1 : bytes -> ID.
  Definition piece_hash (data : list bytes) : ID := sha1 (concat data).

  (** downloader.rs:130-176 [foo]: new state, whether it returned an error, and
      what it sent. [Fail] cannot occur; [Added => todo!()] panics. *)
  Definition dl_block (checked : bool) (s : pp) (d : dl) (b : piece_msg) : res (pp * dl * list (nat * list bytes)) :=
    let begin_ := N.to_nat (pm_begin b) in
    if negb (begin_ mod BLOCK_SIZE =? 0) then Val (s, d, [])
    else
      let piece_idx := N.to_nat (pm_index b) in
      match dmget piece_idx (dl_pieces d) with
      | None => Val (s, d, [])
      | Some hash =>
        let block_idx := begin_ / BLOCK_SIZE in
        match remove_block block_idx (dl_blocks d) with
        | None => Val (s, d, [])
        | Some (removed, rest) =>
          rbind (pp_add_block checked s piece_idx block_idx (pm_block b)) (fun r =>
          match snd r with
          | ARAdded => Panic
          | ARFailed =>
            Val (fst r, mk_dl (dl_pieces d) (rest ++ [mk_ba (ba_piece removed) (ba_block removed) Queued]) (dl_cap d) (dl_counter d), [])
          | ARLast idx ds =>
            let d' := mk_dl (dl_pieces d) rest (dl_cap d) (dl_counter d) in
            if bytes_eqb (piece_hash ds) hash then Val (fst r, d', [(idx, ds)])
            else
              match pp_add_piece (fst r) piece_idx with
              | Val s' => Val (s', d', [])
              | Fail => Val (fst r, d', [])
              | Panic => Panic
              end
          end)
        end
      end.

  (** downloader.rs:20-24, 90-104: what [select!] woke up with (shutdown and
      closed channels excluded). *)
  Inductive dl_event := EvBlock (b : piece_msg) | EvStart (hash : ID) (idx : nat) | EvStop (idx : nat).
  Definition dl_handle (checked : bool) (s : pp) (d : dl) (e : dl_event) : res (pp * dl * list (nat * list bytes)) :=
    match e with
    | EvBlock b => dl_block checked s d b
    | EvStart h i => Val (s, mk_dl (dmset i h (dl_pieces d)) (dl_blocks d) (dl_cap d) (dl_counter d), [])
    | EvStop i => Val (s, mk_dl (dmdel i (dl_pieces d)) (dl_blocks d) (dl_cap d) (dl_counter d), [])
    end.
  Definition is_queued (b : block_addr) : bool := match ba_status b with Queued => true | Requested => false end.
  Definition mark_requested (b : block_addr) : block_addr := mk_ba (ba_piece b) (ba_block b) Requested.
  (** downloader.rs:113-124: requests sent, in order, and the new list. The ten
      second pause between requests is not modelled. *)
  Definition dl_send (l : list block_addr) : list request * list block_addr :=
    (map request_of (filter is_queued l), map (fun b => if is_queued b then mark_requested b else b) l).
  (** downloader.rs:89-127: one iteration of the loop at time [now]. Output:
      finished pieces forwarded and requests sent. *)
  Definition dl_step (checked : bool) (now : nat) (s : pp) (d : dl) (e : dl_event)
    : res (pp * dl * list (nat * list bytes) * list request) :=
    rbind (dl_handle checked s d e) (fun r =>
    match r with (s1, d1, fin) =>
      rbind (if dl_counter d1 mod (ACTIVE_BLOCKS_PER_PEER / 3) =? 0
             then pp_take s1 now (keys (dl_pieces d1)) (dl_blocks d1) (dl_cap d1)
             else Val (s1, dl_blocks d1, dl_cap d1)) (fun t =>
      match t with (s2, blocks, cap) =>
        let sent := dl_send blocks in
        Val (s2, mk_dl (dl_pieces d1) (snd sent) cap (dl_counter d1 + 1), fin, fst sent)
      end)
    end).
End Downloader.
