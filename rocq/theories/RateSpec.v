(** Vocabulary for C107: how often a tracker is asked. *)
From Coq Require Import List NArith.
From Verif Require Import Base TrackerModel TrackerSpec.
Import ListNotations.

(** The time at which a run that began at [t] ends. *)
Fixpoint end_time (t : N) (tr : list tentry) : N :=
  match tr with
  | [] => t
  | e :: tr' => end_time (e_now e) tr'
  end.
(** Every answer asks for at least [k] seconds between requests. *)
Definition asks_for (k : N) (tr : list tentry) : Prop := forall e r, In e tr -> e_event e = Answer r -> (k <= r_interval r)%N.
(** A request that came to nothing. *)
Definition is_failure (e : tevent) : bool := match e with Failure => true | _ => false end.
(** The pause an answer asks for: the interval, and not less than the minimum. *)
Definition pause (r : response) : N :=
  match r_min_interval r with
  | Some m => N.max (r_interval r) m
  | None => r_interval r
  end.
