(** Vocabulary for what trackers are told. *)
From Coq Require Import List NArith Bool Arith.
From Coq Require Import Init.Byte.
From Verif Require Import Base IdModel TrackerModel ClientModel.
Import ListNotations.
Set Implicit Arguments.

(** Sizes: [total] bytes in pieces of [pl] bytes, the last one perhaps shorter. *)
Definition piece_size (total pl : N) (i : nat) : N := N.min pl (total - N.of_nat i * pl).
Definition add_up (l : list N) : N := fold_right N.add 0%N l.
(** The bytes of the pieces that are not in [have]. *)
Definition still_missing (total pl : N) (count : nat) (have : list nat) : N :=
  add_up (map (piece_size total pl) (filter (fun i => negb (existsb (Nat.eqb i) have)) (seq 0 count))).
(** As many pieces as the length needs. *)
Definition fits (total pl : N) (count : nat) : Prop :=
  (0 < pl)%N /\ 0 < count /\ (N.of_nat (count - 1) * pl < total)%N /\ (total <= N.of_nat count * pl)%N.
(** The requests among what was seen. *)
Definition asked_trackers (l : list cout) : list announce := flat_map (fun o => match o with CGet a => [a] | _ => [] end) l.
