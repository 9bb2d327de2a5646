(** Model of how /repo/src/fs uses its file handles. A [tokio::fs::File]
    (tokio 1.25, /repo/Cargo.lock:1534) hands each write to a background thread
    and returns; the next operation on the same handle waits for it; dropping
    the handle neither waits for it nor cancels it. Nothing in /repo/src/fs
    calls [flush]. A write larger than tokio's buffer (2 MiB) would be handed
    over in several parts; here it is one. The disk itself never fails. *)
From Coq Require Import List NArith ZArith Lia Bool Arith Permutation.
From Coq Require Import Init.Byte.
From Verif Require Import Base Assoc CacheModel FsModel.
Import ListNotations.
Set Implicit Arguments.

(** A write handed over but not done: where, what. *)
Definition wreq := (nat * bytes)%type.
(** file_cache.rs:9-17: the files, the cache, the unfinished write of each
    cached handle, and the unfinished writes of handles dropped since. *)
Record fstate := mk_fstate { f_disk : disk; f_cache : cache; f_hand : list (bytes * wreq); f_orph : list (bytes * wreq) }.
(** Doing a write. *)
Definition do_write (d : disk) (w : bytes * wreq) : disk :=
  dput d (fst w) (write_at (dget d (fst w)) (fst (snd w)) (snd (snd w))).
(** Waiting for the handle of [p], as every operation on it does first. *)
Definition settle (p : bytes) (s : fstate) : fstate :=
  match mget bytes_eqb p (f_hand s) with
  | Some w => mk_fstate (do_write (f_disk s) (p, w)) (f_cache s) (mdel bytes_eqb p (f_hand s)) (f_orph s)
  | None => s
  end.
(** file_cache.rs:26-67 with the [seek] that always follows
    (single_file_rw.rs:41, 73, 86, multi_file_rw.rs:57, 101): the handle that is
    evicted is dropped with its write unfinished. *)
Definition use_file (a : access) (now : nat) (p : bytes) (s : fstate) : fstate :=
  let c := fst (get_file a now true p (f_cache s)) in
  let kept (h : bytes * wreq) := mhas bytes_eqb (fst h) c in
  settle p (mk_fstate (f_disk s) c (filter kept (f_hand s)) (f_orph s ++ filter (fun h => negb (kept h)) (f_hand s))).
(** What the program does, and what happens in the background: the write of a
    cached handle finishes, or the [k]th of the dropped ones. *)
Inductive fev :=
| VUse (a : access) (now : nat) (p : bytes)
| VWrite (p : bytes) (off : nat) (b : bytes)
| VRead (p : bytes) (off n : nat)
| VDone (p : bytes)
| VOrphan (k : nat).
Definition program (e : fev) : bool := match e with VDone _ | VOrphan _ => false | _ => true end.
(** One event; [None] when it cannot happen. [write_all] of nothing and
    [read_exact] into nothing do not touch the file. *)
Definition fstep (s : fstate) (e : fev) : option (fstate * list (res bytes)) :=
  match e with
  | VUse a now p => Some (use_file a now p s, [])
  | VWrite p off b =>
    if mhas bytes_eqb p (f_cache s) then
      match b with
      | [] => Some (s, [])
      | _ => let s1 := settle p s in
        Some (mk_fstate (f_disk s1) (f_cache s1) (mset bytes_eqb p (off, b) (f_hand s1)) (f_orph s1), [])
      end
    else None
  | VRead p off n =>
    if mhas bytes_eqb p (f_cache s) then
      match n with
      | O => Some (s, [Val []])
      | _ => let s1 := settle p s in Some (s1, [read_at (dget (f_disk s1) p) off n])
      end
    else None
  | VDone p => match mget bytes_eqb p (f_hand s) with Some _ => Some (settle p s, []) | None => None end
  | VOrphan k =>
    match nth_error (f_orph s) k with
    | Some w => Some (mk_fstate (do_write (f_disk s) w) (f_cache s) (f_hand s) (firstn k (f_orph s) ++ skipn (S k) (f_orph s)), [])
    | None => None
    end
  end.
(** Any run, with what the reads returned; the cache is a hash map, so it may be
    gone through in any order. *)
Inductive fruns : fstate -> list fev -> list (res bytes) -> fstate -> Prop :=
| fr_nil : forall s, fruns s [] [] s
| fr_step : forall s e s1 o h outs s2, fstep s e = Some (s1, o) -> fruns s1 h outs s2 -> fruns s (e :: h) (o ++ outs) s2
| fr_order : forall s c h outs s2, Permutation (f_cache s) c ->
    fruns (mk_fstate (f_disk s) c (f_hand s) (f_orph s)) h outs s2 -> fruns s h outs s2.
(** file_cache.rs:20-24 over the files found on disk. *)
Definition fresh (d : disk) : fstate := mk_fstate d [] [] [].

(** ** what the storage functions do with the handles *)
(** [write_all] of one slice after the other. *)
Fixpoint writes (p : bytes) (off : nat) (l : list bytes) : list fev :=
  match l with [] => [] | b :: t => VWrite p off b :: writes p (off + length b) t end.
(** multi_file_rw.rs:103-131: the slices written, for ranges [chunk_write]
    accepts. *)
Definition chunk_slices (bs : nat) (data : list bytes) (s e : nat) : list bytes :=
  let ew := if e mod bs =? 0 then bs else e mod bs in
  match firstn ((e - 1) / bs + 1 - s / bs) (skipn (s / bs) data) with
  | [] => []
  | [b] => [firstn (e - s) (skipn (s mod bs) b)]
  | b :: t => skipn (s mod bs) b :: removelast t ++ [firstn ew (last t [])]
  end.
(** multi_file_rw.rs:76-88; [nows] are the instants of the accesses. *)
Fixpoint write_script (bs : nat) (i : minfo) (nows : nat -> nat) (data : list bytes) (cs : list fchunk) : list fev :=
  match cs with
  | [] => []
  | c :: t =>
    let p := full_path i (fc_file c) in
    VUse Awrite (nows 0) p :: writes p (fc_before c) (chunk_slices bs data (fc_start c) (fc_end c)) ++
    write_script bs i (fun k => nows (S k)) data t
  end.
(** multi_file_rw.rs:68-91 *)
Definition m_write_script (bs : nat) (i : minfo) (nows : nat -> nat) (idx : nat) (data : list bytes) : list fev :=
  write_script bs i nows data (fib (mi_files i) (idx * mi_plen i) ((idx + 1) * mi_plen i)).
(** multi_file_rw.rs:50-63 *)
Fixpoint read_script (i : minfo) (nows : nat -> nat) (cs : list fchunk) : list fev :=
  match cs with
  | [] => []
  | c :: t =>
    let p := full_path i (fc_file c) in
    VUse Awrite (nows 0) p :: VRead p (fc_before c) (fc_end c - fc_start c) :: read_script i (fun k => nows (S k)) t
  end.
(** multi_file_rw.rs:39-66 *)
Definition m_read_script (i : minfo) (nows : nat -> nat) (idx begin len : nat) : list fev :=
  let s := idx * mi_plen i + begin in read_script i nows (fib (mi_files i) s (s + len)).
(** multi_file_rw.rs:51-62: the buffer, given what each read returned. *)
Fixpoint fill (buf : bytes) (cs : list fchunk) (outs : list (res bytes)) : res bytes :=
  match cs, outs with
  | [], _ => Val buf
  | _, [] => Fail
  | c :: t, o :: outs =>
    if (fc_end c <? fc_start c) || (length buf <? fc_end c) then Panic
    else rbind o (fun x => fill (firstn (fc_start c) buf ++ x ++ skipn (fc_end c) buf) t outs)
  end.
(** single_file_rw.rs:91-106: the slices written, for data [last_bytes]
    accepts. *)
Fixpoint last_slices (bs rem : nat) (data : list bytes) : list bytes :=
  if rem =? 0 then []
  else match data with [] => [] | b :: t => firstn (Nat.min rem bs) b :: last_slices bs (rem - Nat.min rem bs) t end.
(** single_file_rw.rs:51-109 *)
Definition s_write_script (bs : nat) (i : sinfo) (now idx : nat) (data : list bytes) : list fev :=
  VUse Awrite now (si_path i) :: writes (si_path i) (idx * si_plen i)
    (if S idx <? si_n i then data else last_slices bs (si_len i mod si_plen i) data).
(** single_file_rw.rs:36-46 *)
Definition s_read_script (i : sinfo) (now idx begin len : nat) : list fev :=
  [VUse Aread now (si_path i); VRead (si_path i) (idx * si_plen i + begin) len].
