(** Model of /repo/src/data_structures/bitmap.rs *)
From Coq Require Import List NArith ZArith Lia Bool Arith.
From Verif Require Import Base.
Import ListNotations.
Set Implicit Arguments.

(** macros.rs:2-6 [unsigned_ceil_div!(n, d) = 1 + (n - 1) / d]. [n = 0]
    underflows, which panics with overflow checks. Without them the result
    wraps to a number near [2^64 / d]: [Bitmap::new] and [Piece::new]
    (pending_pieces.rs:226) then ask for that much memory and the process
    aborts; only [PendingPieces::new] (pending_pieces.rs:63) goes on, with a
    number of blocks that no piece has. All are [Panic] here, so a piece length
    of 0 is modelled as in builds with overflow checks. [d > 0] at every call site. *)
Definition unsigned_ceil_div (n d : nat) : res nat :=
  match n with O => Panic | S m => Val (1 + m / d) end.

(** bitmap.rs:4-8 *)
Record bitmap := mk_bitmap { bm_data : bytes; bm_len : nat }.

(** bitmap.rs:11-17 *)
Definition bm_new (len : nat) : res bitmap :=
  rbind (unsigned_ceil_div len 8) (fun k => Val (mk_bitmap (repeat x00 k) len)).

(** bitmap.rs:23-37 [replace_data]: error (unchanged state) on a length
    mismatch, otherwise an element-wise copy. *)
Fixpoint copy_over (old new : bytes) : bytes :=
  match old, new with
  | _ :: o, d :: n => d :: copy_over o n
  | o, [] => o
  | [], _ => []
  end.
Definition bm_replace_data (b : bitmap) (new : bytes) : res bitmap :=
  if negb (length new =? length (bm_data b)) then Fail
  else Val (mk_bitmap (copy_over (bm_data b) new) (bm_len b)).

(** [0b1000_0000u8 >> bit_offset], used at bitmap.rs:43, 52. *)
Definition bit_getter (off : nat) : N := N.shiftr 128 (N.of_nat off).
(** u8 complement [!x]. *)
Definition u8_not (x : N) : N := N.lxor 255 x.
(** [(val as u8) << (7 - bit_offset)], bitmap.rs:58. *)
Definition bit_setter (v : bool) (off : nat) : N := N.shiftl (N.b2n v) (N.of_nat (7 - off)).

(** bitmap.rs:39-46 *)
Definition bm_get (b : bitmap) (i : nat) : res bool :=
  match nth_error (bm_data b) (i / 8) with
  | None => Panic
  | Some x => Val (0 <? N.land (bit_getter (i mod 8)) (b2n x))%N
  end.

(** bitmap.rs:48-63 *)
Definition bm_change (b : bitmap) (idx : nat) (v : bool) : res (bitmap * bool) :=
  match nth_error (bm_data b) (idx / 8) with
  | None => Panic
  | Some x =>
    let off := idx mod 8 in
    let bit_val := N.land (bit_getter off) (b2n x) in
    let byte_without_target_bit := N.land (u8_not (bit_getter off)) (b2n x) in
    let byte' := N.lor byte_without_target_bit (bit_setter v off) in
    Val (mk_bitmap (upd (bm_data b) (idx / 8) (n2b byte')) (bm_len b), (0 <? bit_val)%N)
  end.

(** [u8::count_ones] (std): number of one bits. *)
Fixpoint pos_ones (p : positive) : N :=
  match p with xH => 1 | xO q => pos_ones q | xI q => N.succ (pos_ones q) end%N.
Definition count_ones (n : N) : N := match n with N0 => 0%N | Npos p => pos_ones p end.

(** bitmap.rs:65-67; the [u32] sum is taken in unbounded [N] (a bitmap would
    need 512 MB of ones to overflow it). *)
Definition bm_weight (b : bitmap) : N :=
  fold_left (fun acc x => acc + count_ones (b2n x))%N (bm_data b) 0%N.

(** bitmap.rs:69-82 [iter], [Iter] *)
Record bm_iter := mk_iter { it_bm : bitmap; it_idx : nat; it_byte : N }.
Definition bm_iter_start (b : bitmap) : bm_iter := mk_iter b 0 0.

(** bitmap.rs:84-104 [Iter::next]; [<<= 1] on [u8] drops the top bit. *)
Definition iter_next (it : bm_iter) : res (option (bool * bm_iter)) :=
  if it_idx it =? bm_len (it_bm it) then Val None
  else
    rbind (if it_idx it mod 8 =? 0
           then match nth_error (bm_data (it_bm it)) (it_idx it / 8) with
                | Some x => Val (b2n x) | None => Panic end
           else Val (it_byte it))
      (fun cur =>
         let rv := (0 <? N.land 128 cur)%N in
         Val (Some (rv, mk_iter (it_bm it) (S (it_idx it)) (N.shiftl cur 1 mod 256)))).

(** Draining the iterator ([collect]); [fuel] bounds the number of [next]
    calls, running out is reported as [Fail] (never happens, see proofs). *)
Fixpoint iter_collect (fuel : nat) (it : bm_iter) : res (list bool) :=
  match fuel with
  | O => Fail
  | S f =>
    match iter_next it with
    | Val None => Val []
    | Val (Some (x, it')) => rmap (cons x) (iter_collect f it')
    | Fail => Fail
    | Panic => Panic
    end
  end.
Definition bm_bits (b : bitmap) : res (list bool) := iter_collect (S (bm_len b)) (bm_iter_start b).
