(** Model of /repo/src/fs (block storage). [bs] is [BLOCK_SIZE]
    (connection_manager.rs:26); the functions are written for any block size.
    The disk itself never fails; what a failed call has written before the
    failure is not modelled. Writes are immediate here; FileModel.v has the
    background writes of the handles. [usize] arithmetic is unbounded. *)
From Coq Require Import List NArith ZArith Lia Bool Arith.
From Coq Require Import Init.Byte.
From Verif Require Import Base Assoc.
Import ListNotations.
Set Implicit Arguments.

(** metainfo.rs:37-41 *)
Record tfile := mk_tfile { tf_path : list bytes; tf_len : nat }.

(** ** files on disk *)
(** Contents by path. *)
Definition disk := list (bytes * bytes).
(** A file that does not exist reads like an empty one, because every access
    opens it with [create(true)] (file_cache.rs:46-53). *)
Definition dget (d : disk) (p : bytes) : bytes := match mget bytes_eqb p d with Some c => c | None => [] end.
Definition dput (d : disk) (p c : bytes) : disk := mset bytes_eqb p c d.
(** [seek(off)] and [write_all(data)]: holes read as zero; writing nothing
    changes nothing. *)
Definition write_at (f : bytes) (off : nat) (data : bytes) : bytes :=
  match data with
  | [] => f
  | _ => firstn off f ++ repeat x00 (off - length f) ++ data ++ skipn (off + length data) f
  end.
(** [seek(off)] and [read_exact] of [n] bytes. *)
Definition read_at (f : bytes) (off n : nat) : res bytes :=
  if length f <? off + n then (if n =? 0 then Val [] else Fail) else Val (firstn n (skipn off f)).

(** ** single_file_rw.rs *)
(** single_file_rw.rs:11-15; [si_n] is [info.pieces.len()]. *)
Record sinfo := mk_sinfo { si_path : bytes; si_len : nat; si_plen : nat; si_n : nat }.
(** single_file_rw.rs:29-49; returns the new buffer. *)
Definition s_read (i : sinfo) (d : disk) (idx begin len : nat) (buf : bytes) : res bytes :=
  if length buf <? len then Panic
  else rmap (fun x => x ++ skipn len buf) (read_at (dget d (si_path i)) (idx * si_plen i + begin) len).
(** single_file_rw.rs:69-80 *)
Definition s_write_middle (i : sinfo) (d : disk) (idx : nat) (data : list bytes) : res disk :=
  Val (dput d (si_path i) (write_at (dget d (si_path i)) (idx * si_plen i) (concat data))).
(** single_file_rw.rs:91-106: the bytes written. *)
Fixpoint last_bytes (bs rem : nat) (data : list bytes) : res bytes :=
  if rem =? 0 then Val []
  else match data with
    | [] => Fail
    | b :: t =>
      let n := Nat.min rem bs in
      if length b <? n then Panic else rmap (fun r => firstn n b ++ r) (last_bytes bs (rem - n) t)
    end.
(** single_file_rw.rs:82-109 *)
Definition s_write_last (bs : nat) (i : sinfo) (d : disk) (idx : nat) (data : list bytes) : res disk :=
  if si_plen i =? 0 then Panic
  else rbind (last_bytes bs (si_len i mod si_plen i) data) (fun x =>
    Val (dput d (si_path i) (write_at (dget d (si_path i)) (idx * si_plen i) x))).
(** single_file_rw.rs:51-65; [pieces.len() - 1] underflows for a torrent
    without pieces. *)
Definition s_write (bs : nat) (i : sinfo) (d : disk) (idx : nat) (data : list bytes) : res disk :=
  match si_n i with
  | O => Panic
  | S k => if idx <? k then s_write_middle i d idx data else if idx =? k then s_write_last bs i d idx data else Fail
  end.

(** ** multi_file_iter.rs *)
(** multi_file_iter.rs:3-10 *)
Record fchunk := mk_fchunk { fc_file : tfile; fc_start : nat; fc_end : nat; fc_before : nat; fc_after : nat }.
(** multi_file_iter.rs:20-47: the files left in the iterator, [cur_idx]. *)
Fixpoint fib_skip (s e cur : nat) (files : list tfile) : list tfile * nat :=
  match files with
  | [] => ([], cur)
  | f :: t =>
    let fe := cur + tf_len f in
    if (cur <? e) && ((s <? fe) || ((tf_len f =? 0) && (s <=? fe))) then (files, cur) else fib_skip s e fe t
  end.
(** multi_file_iter.rs:53-78, until the first [None]. The subtractions cannot
    underflow when [s <= e]. *)
Fixpoint fib_take (s e cur : nat) (files : list tfile) : list fchunk :=
  match files with
  | [] => []
  | f :: t =>
    let fe := cur + tf_len f in
    if (e <=? cur) || ((fe <=? s) && (0 <? tf_len f)) || ((fe <? s) && (tf_len f =? 0)) then []
    else
      let a := Nat.max s cur in
      let b := Nat.min e fe in
      mk_fchunk f (a - s) (b - s) (a - cur) (fe - b) :: fib_take s e fe t
  end.
Definition fib (files : list tfile) (s e : nat) : list fchunk :=
  let r := fib_skip s e 0 files in fib_take s e (snd r) (fst r).

(** ** multi_file_rw.rs *)
(** multi_file_rw.rs:12-17 *)
Record minfo := mk_minfo { mi_name : bytes; mi_files : list tfile; mi_plen : nat }.
(** [path.join("/")] *)
Fixpoint join (p : list bytes) : bytes :=
  match p with
  | [] => []
  | [c] => c
  | c :: t => c ++ [x2f] ++ join t
  end.
(** multi_file_rw.rs:54, 77 *)
Definition full_path (i : minfo) (f : tfile) : bytes := mi_name i ++ [x2f] ++ join (tf_path f).

(** multi_file_rw.rs:94-134: new contents of the file. *)
Definition chunk_write (bs : nat) (f : bytes) (data : list bytes) (before s e : nat) : res bytes :=
  if e <? s then Panic
  else if e =? 0 then Panic
  else
    let len := e - s in
    let sw := s mod bs in
    let ew := if e mod bs =? 0 then bs else e mod bs in
    let sb := s / bs in
    let eb := (e - 1) / bs + 1 in
    if (eb <? sb) || (length data <? eb) then Panic
    else match firstn (eb - sb) (skipn sb data) with
      | [] => Fail
      | [b] => if length b <? sw + len then Panic else Val (write_at f before (firstn len (skipn sw b)))
      | b :: t =>
        let l := last t [] in
        if (length b <? sw) || (length l <? ew) then Panic
        else Val (write_at f before (skipn sw b ++ concat (removelast t) ++ firstn ew l))
      end.
(** multi_file_rw.rs:76-88 *)
Fixpoint write_chunks (bs : nat) (i : minfo) (d : disk) (data : list bytes) (cs : list fchunk) : res disk :=
  match cs with
  | [] => Val d
  | c :: t =>
    let p := full_path i (fc_file c) in
    rbind (chunk_write bs (dget d p) data (fc_before c) (fc_start c) (fc_end c)) (fun f =>
      write_chunks bs i (dput d p f) data t)
  end.
(** multi_file_rw.rs:68-91 *)
Definition m_write (bs : nat) (i : minfo) (d : disk) (idx : nat) (data : list bytes) : res disk :=
  write_chunks bs i d data (fib (mi_files i) (idx * mi_plen i) ((idx + 1) * mi_plen i)).
(** multi_file_rw.rs:50-63; reading creates missing files, which does not
    change [dget]. *)
Fixpoint read_chunks (i : minfo) (d : disk) (buf : bytes) (cs : list fchunk) : res bytes :=
  match cs with
  | [] => Val buf
  | c :: t =>
    if (fc_end c <? fc_start c) || (length buf <? fc_end c) then Panic
    else rbind (read_at (dget d (full_path i (fc_file c))) (fc_before c) (fc_end c - fc_start c)) (fun x =>
      read_chunks i d (firstn (fc_start c) buf ++ x ++ skipn (fc_end c) buf) t)
  end.
(** multi_file_rw.rs:39-66 *)
Definition m_read (i : minfo) (d : disk) (idx begin len : nat) (buf : bytes) : res bytes :=
  let s := idx * mi_plen i + begin in read_chunks i d buf (fib (mi_files i) s (s + len)).
