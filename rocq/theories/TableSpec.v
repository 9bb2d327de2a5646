(** Vocabulary for the properties of the routing table. *)
From Coq Require Import List NArith ZArith Lia Bool Arith Permutation.
From Verif Require Import Base IdModel IdProofs WireModel TableModel.
Import ListNotations.
Set Implicit Arguments.

(** Number of leading bits two identifiers share, from their XOR distance. *)
Definition dist (a b : ID) : N := N.lxor (id_val a) (id_val b).
Definition cpl (a b : ID) : nat := 160 - N.to_nat (N.size (dist a b)).

(** One touch: at some time, with some id and address. *)
Record touch_ev := mk_touch { te_now : N; te_id : ID; te_addr : addr }.
Fixpoint run (t : table) (h : list touch_ev) : res table :=
  match h with
  | [] => Val t
  | e :: h => rbind (touch_node (te_now e) (te_id e) (te_addr e) t) (fun t' => run t' h)
  end.
(** What a restart loses: when each node was last seen. *)
Definition unseen (n : node) : node := mk_node (n_id n) (n_addr n) None.
Definition forget (t : table) : table :=
  mk_table (t_own t) (map (fun b => mk_bucket (b_depth b) (map (option_map unseen) (b_data b))) (t_data t)).
(** Tables reachable from an empty one by touches and restarts. *)
Definition wf_touch (e : touch_ev) : Prop := wf_id (te_id e) /\ wf_addr (te_addr e).
Inductive reachable : table -> Prop :=
| rc_new : forall own, wf_id own -> reachable (t_default own)
| rc_touch : forall t e t', reachable t -> wf_touch e -> touch_node (te_now e) (te_id e) (te_addr e) t = Val t' -> reachable t'
| rc_restart : forall t, reachable t -> reachable (forget t).

Definition n_buckets (t : table) : nat := length (t_data t).
(** The bucket an id belongs to. *)
Definition home (t : table) (id : ID) : nat := Nat.min (cpl (t_own t) id) (n_buckets t - 1).
Definition bucket_nodes (t : table) (i : nat) : list node :=
  match nth_error (t_data t) i with Some b => iter_nodes b | None => [] end.
(** Nodes of the table, in any order. *)
Definition known (t : table) (id : ID) : Prop := In id (map n_id (t_nodes t)).
(** A node heard of less than 15 minutes ago (times are in nanoseconds). *)
Definition fresh (now : N) (n : node) : bool :=
  match n_seen n with Some s => (now - s <? 15 * 60 * 1000000000)%N | None => false end.
Definition count {A} (p : A -> bool) (l : list A) : nat := length (filter p l).
