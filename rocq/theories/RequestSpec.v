(** Vocabulary for the requests a downloader sends (C108-C110). *)
From Coq Require Import List NArith Arith.
From Verif Require Import Base IdModel WireModel PendingModel PendingSpec.
Import ListNotations.
Set Implicit Arguments.

(** One wake-up of a downloader: when, what the shared pieces in flight were
    (other connections change them in between), what woke it up, and the requests
    it sent. *)
Record wake := mk_wake { w_now : nat; w_shared : pp; w_event : dl_event; w_sent : list request }.
(** The life of a downloader so far, oldest wake-up first. *)
Inductive lived (sha1 : bytes -> ID) (c : bool) : list wake -> dl -> Prop :=
| lv_start : lived sha1 c [] dl_init
| lv_wake : forall h d now s e s' d' fin reqs, lived sha1 c h d -> preach c s ->
    dl_step sha1 c now s d e = Val (s', d', fin, reqs) -> lived sha1 c (h ++ [mk_wake now s e reqs]) d'.

(** The checksum of piece [k] if it is assigned after these events. *)
Fixpoint assigned_from (k : nat) (acc : option ID) (evs : list dl_event) : option ID :=
  match evs with
  | [] => acc
  | EvStart h i :: t => assigned_from k (if i =? k then Some h else acc) t
  | EvStop i :: t => assigned_from k (if i =? k then None else acc) t
  | EvBlock _ :: t => assigned_from k acc t
  end.
Definition assigned (k : nat) (evs : list dl_event) : option ID := assigned_from k None evs.
(** The request for block [b] of piece [k] as in BEP 3, with 32-bit fields. *)
Definition block_request (k b : nat) : request :=
  mk_request (N.of_nat k mod 2 ^ 32) (N.of_nat (b * BLOCK_SIZE) mod 2 ^ 32) (N.of_nat BLOCK_SIZE).
(** The event delivers block [b] of piece [k]. *)
Definition delivers (e : dl_event) (k b : nat) : Prop :=
  exists m, e = EvBlock m /\ N.to_nat (pm_index m) = k /\ N.to_nat (pm_begin m) = b * BLOCK_SIZE.
(** The event delivers data that are refused, for block number [b]. *)
Definition refused (c : bool) (s : pp) (e : dl_event) (b : nat) : Prop :=
  exists m s', e = EvBlock m /\ N.to_nat (pm_begin m) = b * BLOCK_SIZE /\ pp_add_block c s (N.to_nat (pm_index m)) b (pm_block m) = Val (s', ARFailed).
(** The event completes piece [k] with the wrong checksum. *)
Definition spoils (sha1 : bytes -> ID) (c : bool) (s : pp) (e : dl_event) (k : nat) (h : ID) : Prop :=
  exists m b s' ds, e = EvBlock m /\ N.to_nat (pm_index m) = k /\ N.to_nat (pm_begin m) = b * BLOCK_SIZE /\
    pp_add_block c s k b (pm_block m) = Val (s', ARLast k ds) /\ sha1 (concat ds) <> h.
(** Nobody asked for the block, or whoever did has waited more than 7 s. *)
Definition wanted (now : nat) (s : pp) (k b : nat) : Prop :=
  block_at s k b = Some Unbegun \/ exists p t, block_at s k b = Some (Pending p t) /\ t + 7 < now.

(** A downloader that is alone with the shared pieces, woken up by these events. *)
Fixpoint alone (sha1 : bytes -> ID) (c : bool) (s : pp) (d : dl) (evs : list (nat * dl_event)) : res (pp * dl * list wake) :=
  match evs with
  | [] => Val (s, d, [])
  | (now, e) :: t => rbind (dl_step sha1 c now s d e) (fun r =>
      match r with (s', d', _, reqs) => rmap (fun q => (fst q, mk_wake now s e reqs :: snd q)) (alone sha1 c s' d' t) end)
  end.
(** The peer sends no block. *)
Definition silent (evs : list (nat * dl_event)) : Prop := forall now m, ~ In (now, EvBlock m) evs.
