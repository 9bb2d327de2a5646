(** Model of /repo/src/fs/file_cache.rs. Instants are numbers; opening a file
    succeeds or fails as told by the caller. *)
From Coq Require Import List NArith ZArith Lia Bool Arith.
From Coq Require Import Init.Byte.
From Verif Require Import Base Assoc.
Import ListNotations.
Set Implicit Arguments.

(** file_cache.rs:7 *)
Definition FILE_CACHE_SIZE : nat := 16.
(** file_cache.rs:13-17; the handle itself is not modelled. *)
Record centry := mk_centry { ce_read : option nat; ce_write : option nat }.
(** file_cache.rs:9-11 *)
Definition cache := list (bytes * centry).
(** file_cache.rs:70-87; [None] stands for [Duration::MAX]. *)
Definition weighted_elapsed (now : nat) (e : centry) : option nat :=
  match ce_read e, ce_write e with
  | Some r, Some w => Some ((now - r) + (now - w))
  | Some r, None => Some ((now - r) * 3)
  | None, Some w => Some ((now - w) * 3)
  | None, None => None
  end.
(** [a <= b] on [Duration]. *)
Definition dur_le (a b : option nat) : bool :=
  match a, b with
  | _, None => true
  | None, Some _ => false
  | Some x, Some y => x <=? y
  end.
(** [Iterator::max_by_key]: the last of the largest elements. *)
Fixpoint max_from (now : nat) (best : bytes * centry) (c : cache) : bytes * centry :=
  match c with
  | [] => best
  | x :: t => max_from now (if dur_le (weighted_elapsed now (snd best)) (weighted_elapsed now (snd x)) then x else best) t
  end.
(** file_cache.rs:59-67 *)
Definition evict (now : nat) (c : cache) : cache :=
  match c with
  | [] => c
  | x :: t => mdel bytes_eqb (fst (max_from now x t)) c
  end.
(** file_cache.rs:42-57; the file is opened on every access, also when it is
    cached already. Returns the cache as left behind and whether it succeeded. *)
Definition get_entry (now : nat) (opens : bool) (path : bytes) (c : cache) : cache * bool :=
  let c := if (length c =? FILE_CACHE_SIZE) && negb (mhas bytes_eqb path c) then evict now c else c in
  if opens then ((if mhas bytes_eqb path c then c else mset bytes_eqb path (mk_centry None None) c), true) else (c, false).
Inductive access := Aread | Awrite.
(** file_cache.rs:26-40 *)
Definition get_file (a : access) (now : nat) (opens : bool) (path : bytes) (c : cache) : cache * bool :=
  let r := get_entry now opens path c in
  if snd r then
    match mget bytes_eqb path (fst r) with
    | Some e => (mset bytes_eqb path (match a with Aread => mk_centry (Some now) (ce_write e) | Awrite => mk_centry (ce_read e) (Some now) end) (fst r), true)
    | None => r
    end
  else r.
