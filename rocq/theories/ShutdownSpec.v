(** Vocabulary for the shutdown properties, in terms of what happened. *)
From Coq Require Import List Lia Bool Arith.
From Verif Require Import Base ShutdownModel.
Import ListNotations.
Set Implicit Arguments.

(** How many receivers were ever made; the first comes with the channel. *)
Fixpoint made (h : list sd_event) : nat :=
  match h with [] => 1 | Clone _ :: t => S (made t) | _ :: t => made t end.
(** Receiver [r] exists after history [h]: it was made in time and not dropped. *)
Definition living (h : list sd_event) (r : nat) : Prop := r < made h /\ ~ In (Drop r) h.
Definition nobody_left (h : list sd_event) : Prop := forall r, ~ living h r.
(** [r] was alive when the signal was given and has not seen it yet. *)
Definition signalled (h : list sd_event) (r : nat) : Prop :=
  exists a b, h = a ++ Send :: b /\ living a r /\ ~ In (Recv r) b.
(** The signal was given and its sender still waits. *)
Definition waiting (h : list sd_event) : Prop := In Send h /\ ~ In Waited h /\ ~ In DropWaiter h.
Definition history (h : list sd_event) (s : sd) : Prop := sd_run sd_channel h = Some (Val s).
