(** Model of /repo/src/peers/active_peers.rs *)
From Coq Require Import List NArith ZArith Lia Bool Arith.
From Verif Require Import Base Assoc IdModel WireModel.
Import ListNotations.
Set Implicit Arguments.

(** active_peers.rs:10-18 *)
Inductive status := Active | Unknown | UnableToConnect | ChokedForTooLong | NoUsefulPieces.
(** [discriminant(a) == discriminant(b)] *)
Definition status_eqb (a b : status) : bool :=
  match a, b with
  | Active, Active | Unknown, Unknown | UnableToConnect, UnableToConnect
  | ChokedForTooLong, ChokedForTooLong | NoUsefulPieces, NoUsefulPieces => true
  | _, _ => false
  end.
(** active_peers.rs:20-24: the map behind the mutex ([info_hash] only matters
    for [serve]). The order of the list is the iteration order. *)
Definition peers := list (addr * status).
Definition qget := @mget addr status addr_eqb.
Definition qset := @mset addr status addr_eqb.

(** active_peers.rs:34-36 *)
Definition q_insert (m : peers) (p : addr) : peers := qset p Unknown m.
(** active_peers.rs:128-137; [HashMap::extend] inserts one by one. *)
Definition q_extend (m : peers) (ps : list addr) : peers := fold_left q_insert ps m.
(** active_peers.rs:39-41 *)
Definition q_serve (own h : ID) : bool := bytes_eqb h own.
(** active_peers.rs:43-45 *)
Definition q_addresses (m : peers) : list addr := keys m.

(** active_peers.rs:110-121: one status; [take] stops polling after [n] items,
    so exactly the returned peers are marked. *)
Fixpoint activate_pass (cur : status) (n : nat) (m : peers) : peers * list addr :=
  match n, m with
  | O, _ => (m, [])
  | _, [] => ([], [])
  | S k, (p, st) :: t =>
    if status_eqb st cur then
      let r := activate_pass cur k t in ((p, Active) :: fst r, p :: snd r)
    else let r := activate_pass cur n t in ((p, st) :: fst r, snd r)
  end.
(** active_peers.rs:101-125; [limit - newly_activated_peers.len()] is checked. *)
Fixpoint activate (limit : nat) (order : list status) (m : peers) (acc : list addr) : res (peers * list addr) :=
  match order with
  | [] => Val (m, acc)
  | st :: rest =>
    if limit <? length acc then Panic
    else let r := activate_pass st (limit - length acc) m in activate limit rest (fst r) (acc ++ snd r)
  end.
(** active_peers.rs:55-60 *)
Definition good_order : list status := [Active; NoUsefulPieces; Unknown; ChokedForTooLong].
(** active_peers.rs:80-85 *)
Definition batch_order : list status := [Unknown; NoUsefulPieces; ChokedForTooLong; UnableToConnect].
(** active_peers.rs:54-71 *)
Definition q_good (m : peers) (limit : nat) : res (peers * option (list addr)) :=
  rmap (fun r => (fst r, match snd r with [] => None | l => Some l end)) (activate limit good_order m []).
(** active_peers.rs:91-99 *)
Definition q_return (m : peers) (bad : list (addr * status)) : peers :=
  fold_left (fun m ps => qset (fst ps) (snd ps) m) bad m.
(** active_peers.rs:75-90 *)
Definition q_batch (m : peers) (bad : list (addr * status)) (limit : nat) : res (peers * list addr) :=
  activate limit batch_order (q_return m bad) [].
(** active_peers.rs:8, 47-52; [usize_max] is [usize::MAX]. *)
Definition ENOUGH_GOOD_PEERS : nat := 128.
Definition q_enough (usize_max : nat) (m : peers) : res (peers * bool) :=
  rmap (fun r => (fst r, ENOUGH_GOOD_PEERS <=? match snd r with Some l => length l | None => 0 end)) (q_good m usize_max).
