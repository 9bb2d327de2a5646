(** What the storage should do: every write is there for every later read. *)
From Coq Require Import List NArith ZArith Lia Bool Arith Permutation.
From Verif Require Import Base Assoc FsModel FileModel.
Import ListNotations.
Set Implicit Arguments.

(** The files after the writes of a history, in the order they were made. *)
Fixpoint plain (d : disk) (h : list fev) : disk :=
  match h with
  | [] => d
  | VWrite p off b :: t => plain (dput d p (write_at (dget d p) off b)) t
  | _ :: t => plain d t
  end.
(** What the reads of a history should return. *)
Fixpoint plain_reads (d : disk) (h : list fev) : list (res bytes) :=
  match h with
  | [] => []
  | VWrite p off b :: t => plain_reads (dput d p (write_at (dget d p) off b)) t
  | VRead p off n :: t => read_at (dget d p) off n :: plain_reads d t
  | _ :: t => plain_reads d t
  end.
(** The files a history uses, with repetitions. *)
Definition used (h : list fev) : list bytes := flat_map (fun e => match e with VUse _ _ p => [p] | _ => [] end) h.
(** Two writes do not touch the same byte. *)
Definition apart (a b : bytes * (nat * bytes)) : Prop :=
  fst a = fst b -> fst (snd a) + length (snd (snd a)) <= fst (snd b) \/ fst (snd b) + length (snd (snd b)) <= fst (snd a).
(** The writes of a history. *)
Definition written (h : list fev) : list (bytes * (nat * bytes)) :=
  flat_map (fun e => match e with VWrite p off b => match b with [] => [] | _ => [(p, (off, b))] end | _ => [] end) h.
(** No byte is written twice. *)
Definition once (h : list fev) : Prop := ForallOrdPairs apart (written h).
(** Nothing is under way in the background. *)
Definition quiet (s : fstate) : Prop := f_hand s = [] /\ f_orph s = [].
