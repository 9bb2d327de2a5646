(** Model of the clean-up when the directories of a multi-file torrent cannot be
    created (/repo/src/fs/multi_file_rw.rs:154-167). DirsModel.v leaves it out,
    because the caller panics; the directories on the disk remain all the same. *)
From Coq Require Import List NArith ZArith Lia Bool Arith.
From Coq Require Import Init.Byte.
From Verif Require Import Base FsModel DirsModel.
Import ListNotations.
Set Implicit Arguments.

(** [d] or something below it. *)
Fixpoint at_or_below (d q : list bytes) : bool :=
  match d, q with
  | [], _ => true
  | x :: d, y :: q => bytes_eqb x y && at_or_below d q
  | _, [] => false
  end.
(** [remove_dir_all(p)] (tokio; taken to succeed if [p] is there): the directory
    [p] leads to goes with all that is below it. *)
Definition remove_all (t : tree) (p : bytes) : tree :=
  match walk t [] (comps p) with
  | Some d => filter (fun q => negb (at_or_below d q)) t
  | None => t
  end.
Section clean.
(** What else keeps a directory from being created: no permission, a file of that
    name, no room. *)
Variable deny : list bytes -> bool.
(** [DirBuilder::recursive(false).create(p)] *)
Definition mkdir_os (t : tree) (p : bytes) : option tree :=
  match locate t p with
  | Some d => if has t d || deny d then None else Some (d :: t)
  | None => None
  end.
(** multi_file_rw.rs:159-164; the tree afterwards and whether all went well. *)
Fixpoint make (t : tree) (wd : bytes) (l : list bytes) : tree * bool :=
  match l with
  | [] => (t, true)
  | d :: r => match mkdir_os t d with Some t' => make t' wd r | None => (remove_all t wd, false) end
  end.
(** multi_file_rw.rs:154-167 *)
Definition make_all (t : tree) (wd : bytes) (dirs : list bytes) : tree * bool :=
  match mkdir_os t wd with Some t' => make t' wd dirs | None => (t, false) end.
(** multi_file_rw.rs:142-152; [u] is as in [new_multi]. *)
Definition set_up (t : tree) (base name : bytes) (u : list bytes) : tree * bool :=
  make_all t (working_dir base name) (dirs_by_asc_depth (working_dir base name) u).
End clean.
