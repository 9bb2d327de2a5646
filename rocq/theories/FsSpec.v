(** Vocabulary for the storage properties. *)
From Coq Require Import List NArith ZArith Lia Bool Arith.
From Verif Require Import Base FsModel.
Import ListNotations.
Set Implicit Arguments.

(** All bytes of a multi-file torrent in order: which file, which offset. *)
Definition all_pos (files : list tfile) : list (tfile * nat) :=
  flat_map (fun f => map (pair f) (seq 0 (tf_len f))) files.
(** Bytes covered by a list of chunks. *)
Definition chunk_pos (c : fchunk) : list (tfile * nat) :=
  map (fun j => (fc_file c, fc_before c + j)) (seq 0 (fc_end c - fc_start c)).
(** Chunks follow each other without gap or overlap, from [k] on. *)
Fixpoint chained (k : nat) (cs : list fchunk) : Prop :=
  match cs with [] => True | c :: t => fc_start c = k /\ k <= fc_end c /\ chained (fc_end c) t end.
(** Where each file starts in the torrent. *)
Fixpoint offsets (cur : nat) (files : list tfile) : list (tfile * nat) :=
  match files with [] => [] | f :: t => (f, cur) :: offsets (cur + tf_len f) t end.
Definition total (files : list tfile) : nat := fold_right (fun f n => tf_len f + n) 0 files.

(** Bytes [s, s+n) of a byte string. *)
Definition part (D : bytes) (s n : nat) : bytes := firstn n (skipn s D).
(** [data] is a list of blocks of size [bs] (only the last may be shorter). *)
Fixpoint blocked (bs : nat) (data : list bytes) : Prop :=
  match data with
  | [] => True
  | [b] => length b <= bs
  | b :: t => length b = bs /\ blocked bs t
  end.
(** [data] are the blocks of piece [idx] of a torrent with contents [D] and
    pieces of [pl] bytes; the blocks of the last piece may be padded. *)
Definition piece_blocks (bs pl : nat) (D : bytes) (idx : nat) (data : list bytes) : Prop :=
  blocked bs data /\
  if (idx + 1) * pl <=? length D then concat data = part D (idx * pl) pl
  else exists pad, concat data = part D (idx * pl) pl ++ pad.
(** Number of pieces. *)
Definition pieces_of (L pl : nat) : nat := (L + pl - 1) / pl.

(** Writing a sequence of pieces. *)
Fixpoint write_all (w : disk -> nat -> list bytes -> res disk) (d : disk) (ps : list (nat * list bytes)) : res disk :=
  match ps with [] => Val d | (i, b) :: t => rbind (w d i b) (fun d' => write_all w d' t) end.

(** Path of a file of a multi-file torrent: the torrent's directory, then the
    components, each after a slash. *)
Definition spec_path (i : minfo) (f : tfile) : bytes :=
  mi_name i ++ match tf_path f with [] => [Byte.x2f] | p => flat_map (cons Byte.x2f) p end.
