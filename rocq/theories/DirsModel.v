(** Model of the directory set-up of multi-file torrents
    (/repo/src/fs/multi_file_rw.rs:19-34 and 136-190). Directories are the
    components below the process's working directory; symbolic links,
    permissions and other processes are not modelled. *)
From Coq Require Import List NArith ZArith Lia Bool Arith.
From Coq Require Import Init.Byte.
From Verif Require Import Base FsModel.
Import ListNotations.
Set Implicit Arguments.

(** ** paths, as the operating system resolves them *)
Definition slash : byte := x2f.
Definition dot : bytes := [x2e].
Definition dotdot : bytes := [x2e; x2e].
Fixpoint split (p : bytes) : list bytes :=
  match p with
  | [] => [[]]
  | b :: t => if Byte.eqb b slash then [] :: split t else match split t with [] => [[b]] | c :: r => (b :: c) :: r end
  end.
Definition comps (p : bytes) : list bytes := filter (fun c => negb (bytes_eqb c [])) (split p).
(** Existing directories; the root is not listed. *)
Definition tree := list (list bytes).
Fixpoint cs_eqb (a b : list bytes) : bool :=
  match a, b with
  | [], [] => true
  | x :: a, y :: b => bytes_eqb x y && cs_eqb a b
  | _, _ => false
  end.
Definition has (t : tree) (d : list bytes) : bool := existsb (cs_eqb d) t.
Fixpoint walk (t : tree) (cur cs : list bytes) : option (list bytes) :=
  match cs with
  | [] => Some cur
  | c :: r =>
    if bytes_eqb c dot then walk t cur r
    else if bytes_eqb c dotdot then walk t (removelast cur) r
    else if has t (cur ++ [c]) then walk t (cur ++ [c]) r else None
  end.
(** Where a path that need not exist would be created. *)
Definition locate (t : tree) (p : bytes) : option (list bytes) :=
  match comps p with
  | [] => None
  | cs =>
    let c := last cs [] in
    if bytes_eqb c dot || bytes_eqb c dotdot then None
    else match walk t [] (removelast cs) with Some d => Some (d ++ [c]) | None => None end
  end.
(** [DirBuilder::recursive(false).create(p)] *)
Definition mkdir (t : tree) (p : bytes) : res tree :=
  match locate t p with
  | Some d => if has t d then Fail else Val (d :: t)
  | None => Fail
  end.

(** ** multi_file_rw.rs *)
(** multi_file_rw.rs:172-180: the paths inserted for one file. *)
Fixpoint prefixes (acc : bytes) (p : list bytes) : list bytes :=
  match p with
  | [] => []
  | c :: t => let a := acc ++ c ++ [slash] in a :: prefixes a t
  end.
Definition file_dirs (f : tfile) : list bytes :=
  if 1 <? length (tf_path f) then prefixes [] (removelast (tf_path f)) else [].
(** The insertions of all files; the hash set holds each once. *)
Definition all_dirs (files : list tfile) : list bytes := flat_map file_dirs files.
(** [u] lists the elements of the hash set in some order. *)
Definition set_of (u : list bytes) (l : list bytes) : Prop := NoDup u /\ forall x, In x u <-> In x l.
(** multi_file_rw.rs:187 *)
Definition depth (p : bytes) : nat := length (filter (fun b => Byte.eqb b slash) p).
Fixpoint ins (x : bytes) (l : list bytes) : list bytes :=
  match l with
  | [] => [x]
  | y :: t => if depth x <=? depth y then x :: l else y :: ins x t
  end.
Fixpoint sort_depth (l : list bytes) : list bytes := match l with [] => [] | x :: t => ins x (sort_depth t) end.
(** multi_file_rw.rs:169-190, after the loop. *)
Definition dirs_by_asc_depth (wd : bytes) (u : list bytes) : list bytes := sort_depth (map (fun d => wd ++ d) u).
(** multi_file_rw.rs:159-164; the clean-up after a failure is in
    CleanModel.v. *)
Fixpoint mkdirs (t : tree) (l : list bytes) : res tree :=
  match l with [] => Val t | d :: r => rbind (mkdir t d) (fun t' => mkdirs t' r) end.
(** multi_file_rw.rs:154-167 *)
Definition create_dirs (t : tree) (wd : bytes) (dirs : list bytes) : res tree := rbind (mkdir t wd) (fun t' => mkdirs t' dirs).
(** multi_file_rw.rs:147 *)
Definition working_dir (base name : bytes) : bytes := base ++ [slash] ++ name ++ [slash].
(** multi_file_rw.rs:19-34: [build_dir_tree(...).unwrap()]. *)
Definition new_multi (t : tree) (base name : bytes) (u : list bytes) : res tree :=
  match create_dirs t (working_dir base name) (dirs_by_asc_depth (working_dir base name) u) with Val t' => Val t' | _ => Panic end.
(** multi_file_rw.rs:54, 77: the path string of a file. *)
Definition file_path (base name : bytes) (f : tfile) : bytes := base ++ [slash] ++ name ++ [slash] ++ join (tf_path f).
