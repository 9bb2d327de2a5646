(** Vocabulary for the properties of the peer table. *)
From Coq Require Import List NArith ZArith Lia Bool Arith Permutation.
From Verif Require Import Base Assoc IdModel WireModel PeersModel.
Import ListNotations.
Set Implicit Arguments.

(** How desirable a peer is for each kind of batch (0 is best, [None] is not
    eligible). *)
Definition good_rank (st : status) : option nat :=
  match st with Active => Some 0 | NoUsefulPieces => Some 1 | Unknown => Some 2 | ChokedForTooLong => Some 3 | UnableToConnect => None end.
Definition batch_rank (st : status) : option nat :=
  match st with Unknown => Some 0 | NoUsefulPieces => Some 1 | ChokedForTooLong => Some 2 | UnableToConnect => Some 3 | Active => None end.
(** Status of a peer in a table. *)
Definition status_of (m : peers) (p : addr) (st : status) : Prop := In (p, st) m.
Definition known (m : peers) (p : addr) : Prop := exists st, status_of m p st.

(** A batch [out] taken from table [m] (leaving [m']) of at most [limit] peers
    is as it should be. *)
Record good_batch (rank : status -> option nat) (limit : nat) (m : peers) (m' : peers) (out : list addr) : Prop := {
  gb_size : length out <= limit;
  gb_nodup : NoDup out;
  gb_eligible : forall p, In p out -> exists st r, status_of m p st /\ rank st = Some r;
  gb_maximal : length out = limit \/ forall p st r, status_of m p st -> rank st = Some r -> In p out;
  gb_priority : forall p st r q st' r', In p out -> status_of m p st -> rank st = Some r ->
    ~ In q out -> status_of m q st' -> rank st' = Some r' -> r <= r';
  gb_marked : forall p, In p out -> status_of m' p Active;
  gb_frame : forall p st, ~ In p out -> (status_of m' p st <-> status_of m p st);
  gb_same_peers : map fst m' = map fst m
}.

(** Operations on the table and histories. *)
Inductive qop := QInsert (p : addr) | QExtend (ps : list addr) | QBatch (bad : list (addr * status)) (limit : nat)
  | QGood (limit : nat) | QEnough (usize_max : nat).
Definition q_step (m : peers) (o : qop) : res (peers * list addr) :=
  match o with
  | QInsert p => Val (q_insert m p, [])
  | QExtend ps => Val (q_extend m ps, [])
  | QBatch bad l => q_batch m bad l
  | QGood l => rmap (fun r => (fst r, match snd r with Some x => x | None => [] end)) (q_good m l)
  | QEnough u => rmap (fun r => (fst r, [])) (q_enough u m)
  end.
Inductive qrun : peers -> list (qop * list addr) -> peers -> Prop :=
| qr_nil : forall m m', Permutation m m' -> qrun m [] m'
| qr_cons : forall m m1 o m2 out h m', Permutation m m1 -> q_step m1 o = Val (m2, out) -> qrun m2 h m' ->
    qrun m ((o, out) :: h) m'.
(** Peers an operation names. *)
Definition names (o : qop) : list addr :=
  match o with
  | QInsert p => [p] | QExtend ps => ps | QBatch bad _ => map fst bad | QGood _ => [] | QEnough _ => []
  end.
