(** Vocabulary for the properties of pieces in flight and of the downloader. *)
From Coq Require Import List NArith ZArith Lia Bool Arith Permutation.
From Verif Require Import Base Assoc BitmapModel IdModel WireModel PendingModel.
Import ListNotations.
Set Implicit Arguments.

(** Number of blocks of a piece, and length of its [i]-th block. *)
Definition n_blocks (pl : nat) : nat := (pl + (BLOCK_SIZE - 1)) / BLOCK_SIZE.
Definition block_len (pl i : nat) : nat := Nat.min BLOCK_SIZE (pl - i * BLOCK_SIZE).

(** Contents of the in-flight set. *)
Definition in_flight (s : pp) (k : nat) : Prop := In k (map fst (pp_data s)).
Definition block_at (s : pp) (k b : nat) : option block :=
  match pmget k (pp_data s) with Some p => nth_error (pc_data p) b | None => None end.
Definition n_in_flight (s : pp) : nat := length (pp_data s).

(** Operations on the in-flight set, from any of the connections. *)
Inductive pop :=
| OAdd (k : nat)
| OBlock (k b : nat) (data : bytes)
| OTake (now : nat) (pieces : list nat) (buf : list block_addr) (cap : nat)
| OCancel (from : addr).
Inductive pout := PAdd (ok : bool) | PBlock (r : add_res) | PTake (buf : list block_addr) | PNone.
Definition pp_step (checked : bool) (s : pp) (o : pop) : res (pp * pout) :=
  match o with
  | OAdd k => match pp_add_piece s k with
              | Val s' => Val (s', PAdd true) | Fail => Val (s, PAdd false) | Panic => Panic end
  | OBlock k b d => rmap (fun r => (fst r, PBlock (snd r))) (pp_add_block checked s k b d)
  | OTake now ps buf cap => rmap (fun r => (fst (fst r), PTake (snd (fst r)))) (pp_take s now ps buf cap)
  | OCancel a => Val (pp_cancel_pending s a, PNone)
  end.
Fixpoint pp_run (checked : bool) (s : pp) (ops : list pop) : res (pp * list pout) :=
  match ops with
  | [] => Val (s, [])
  | o :: t => rbind (pp_step checked s o) (fun r => rmap (fun q => (fst q, snd r :: snd q)) (pp_run checked (fst r) t))
  end.
(** States reachable by some history; [HashMap]s may be reordered at will. *)
Inductive preach (checked : bool) : pp -> Prop :=
| pr_new : forall pl s, pp_new pl = Val s -> preach checked s
| pr_owner : forall s a, preach checked s -> preach checked (pp_set_owner s a)
| pr_step : forall s o s' out, preach checked s -> pp_step checked s o = Val (s', out) -> preach checked s'
| pr_rehash : forall s d, preach checked s -> Permutation (pp_data s) d -> preach checked (pp_with s d).

(** A block that may be stored. *)
Definition acceptable (s : pp) (k b : nat) (data : bytes) : Prop :=
  in_flight s k /\ b < n_blocks (pp_piece_length s) /\ length data = block_len (pp_piece_length s) b.

(** Blocks of piece [k] delivered by a list of operations, and the answers. *)
Definition arrivals (k : nat) (ops : list pop) : list (nat * bytes) :=
  flat_map (fun o => match o with OBlock q b d => if q =? k then [(b, d)] else [] | _ => [] end) ops.
Fixpoint replies (k : nat) (ops : list pop) (outs : list pout) : list add_res :=
  match ops, outs with
  | OBlock q _ _ :: t, PBlock r :: u => if q =? k then r :: replies k t u else replies k t u
  | _ :: t, _ :: u => replies k t u
  | _, _ => []
  end.
(** Piece [k] is in flight and nothing of it has been received. *)
Definition untouched (s : pp) (k : nat) : Prop :=
  exists p, pmget k (pp_data s) = Some p /\ pc_downloaded p = 0 /\
    forall b d, nth_error (pc_data p) b <> Some (Downloaded d).
(** Invariant of the in-flight set. *)
Definition wf_pp (s : pp) : Prop :=
  0 < pp_piece_length s /\ pp_bpp s = n_blocks (pp_piece_length s) /\ NoDup (map fst (pp_data s)) /\
  length (pp_data s) <= 10 /\ Forall (fun kp => length (pc_data (snd kp)) = pp_bpp s) (pp_data s).
(** Received-block counters are right. *)
Definition is_downloaded (b : block) : bool := match b with Downloaded _ => true | _ => false end.
Definition counted (s : pp) : Prop :=
  Forall (fun kp => pc_downloaded (snd kp) = length (filter is_downloaded (pc_data (snd kp))) /\
                    pc_downloaded (snd kp) < pp_bpp s) (pp_data s).
