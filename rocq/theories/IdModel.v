(** Model of /repo/src/data_structures/id.rs *)
From Coq Require Import List NArith ZArith Lia Bool Arith.
From Verif Require Import Base.
From Verif Require BitmapModel.
Import ListNotations.
Set Implicit Arguments.

(** id.rs:13-17 [ID([u8; ID_LEN])]: a byte string; the array type is the side
    condition [wf_id]. *)
Definition ID := bytes.
Definition ID_LEN : nat := 20.
Definition ID_BIT_COUNT : nat := 160.
Definition wf_id (i : ID) : Prop := length i = ID_LEN.

Definition id_eqb (a b : ID) : bool := bytes_eqb a b.

(** [0b1000_0000u8 >> bit_offset] (id.rs:28, 37, 46) *)
Definition bit_filter (off : nat) : N := N.shiftr 128 (N.of_nat off).

(** id.rs:24-31 *)
Definition get_bit (id : ID) (i : nat) : res bool :=
  match nth_error id (i / 8) with
  | None => Panic
  | Some x => Val (0 <? N.land (bit_filter (i mod 8)) (b2n x))%N
  end.

(** id.rs:33-40 *)
Definition flip_bit (id : ID) (i : nat) : res ID :=
  match nth_error id (i / 8) with
  | None => Panic
  | Some x => Val (upd id (i / 8) (n2b (N.lxor (b2n x) (bit_filter (i mod 8)))))
  end.

(** id.rs:42-54 *)
Definition change_bit (id : ID) (i : nat) (v : bool) : res ID :=
  match nth_error id (i / 8) with
  | None => Panic
  | Some x =>
    let bit_clearer := N.lxor 255 (bit_filter (i mod 8)) in
    let byte_without_target_bit := N.land bit_clearer (b2n x) in
    let bit_setter := N.shiftl (N.b2n v) (N.of_nat (7 - i mod 8)) in
    Val (upd id (i / 8) (n2b (N.lor byte_without_target_bit bit_setter)))
  end.

(** id.rs:60-64, the loop over whole bytes: [None] = fell through. *)
Fixpoint cmp_bytes (k : nat) (a b : bytes) : option comparison :=
  match k, a, b with
  | S k', x :: a', y :: b' =>
    match N.compare (b2n x) (b2n y) with
    | Eq => cmp_bytes k' a' b'
    | c => Some c
    end
  | _, _, _ => None
  end.
Definition bool_cmp (a b : bool) : comparison :=
  match a, b with
  | false, true => Lt | true, false => Gt | _, _ => Eq
  end.
(** id.rs:66-72, the loop over the remaining bits [start .. start + k). *)
Fixpoint cmp_bits (k start : nat) (a b : ID) : res (option comparison) :=
  match k with
  | O => Val None
  | S k' =>
    match get_bit a start, get_bit b start with
    | Val x, Val y =>
      match bool_cmp x y with
      | Eq => cmp_bits k' (S start) a b
      | c => Val (Some c)
      end
    | _, _ => Panic
    end
  end.
(** id.rs:56-75 *)
Definition cmp_first_n_bits (a b : ID) (n : nat) : res comparison :=
  let byte_idx := n / 8 in
  let bit_offset := n mod 8 in
  match cmp_bytes byte_idx a b with
  | Some c => Val c
  | None =>
    rbind (cmp_bits bit_offset (byte_idx * 8) a b) (fun o =>
      Val (match o with Some c => c | None => Eq end))
  end.

(** id.rs:77-82, 283-300 [BitIter]: yields [get_bit 0 .. get_bit 159]. The
    array has 20 bytes so no [get_bit] panics; [Panic] would show as [false]. *)
Definition bit_iter (id : ID) : list bool :=
  map (fun i => match get_bit id i with Val b => b | _ => false end) (seq 0 (ID_LEN * 8)).

(** id.rs:84-92 *)
Fixpoint first_diff_from (idx : nat) (l r : list bool) : option nat :=
  match l, r with
  | x :: l', y :: r' => if negb (Bool.eqb x y) then Some idx else first_diff_from (S idx) l' r'
  | _, _ => None
  end.
Definition first_diff_bit_idx (a b : ID) : option nat := first_diff_from 0 (bit_iter a) (bit_iter b).

(** id.rs:104-106: overwrite the tail bytes with successive draws. *)
Definition overwrite_tail (id : ID) (first : nat) (draws : list byte) : ID :=
  firstn first id ++ firstn (length id - first) draws.
(** id.rs:108-112: flip each remaining bit of the first byte on a [true] draw. *)
Fixpoint flip_by_draws (id : ID) (bit : nat) (draws : list bool) : res ID :=
  match draws with
  | [] => Val id
  | d :: ds => if d then rbind (flip_bit id bit) (fun id' => flip_by_draws id' (S bit) ds)
               else flip_by_draws id (S bit) ds
  end.
(** id.rs:94-112. The generator's outcomes are arguments: [byte_draws] for the
    byte loop (at least [19 - i/8] of them are consumed) and [bit_draws] for
    the bit loop (exactly [7 - i mod 8] of them are consumed). *)
Definition randomize_after_bit (id : ID) (i : nat) (byte_draws : list byte) (bit_draws : list bool) : res ID :=
  if ID_BIT_COUNT <=? i then Val id
  else
    let first_byte_idx := i / 8 + 1 in
    flip_by_draws (overwrite_tail id first_byte_idx byte_draws) (i + 1)
                  (firstn (first_byte_idx * 8 - (i + 1)) bit_draws).

(** id.rs:114-125 *)
Definition bit_based_order {T} (id : ID) (bit_idx : nat) (first_if_true first_if_false : T) : res (T * T) :=
  match get_bit id bit_idx with
  | Val true => Val (first_if_true, first_if_false)
  | Val false => Val (first_if_false, first_if_true)
  | _ => Panic
  end.

(** u32 arithmetic with overflow checks (debug build). *)
Definition u32_sub (a b : N) : res N := if (b <=? a)%N then Val (a - b)%N else Panic.
Definition u32_add (a b : N) : res N := if (a + b <? 2 ^ 32)%N then Val (a + b)%N else Panic.

(** id.rs:149-154 *)
Definition hamming_weight (x : N) : res N :=
  rbind (u32_sub x (N.land (N.shiftr x 1) 0x55555555)) (fun x1 =>
  rbind (u32_add (N.land x1 0x33333333) (N.land (N.shiftr x1 2) 0x33333333)) (fun x2 =>
  rbind (u32_add x2 (N.shiftr x2 4)) (fun x3' =>
  let x3 := N.land x3' 0x0f0f0f0f in
  Val (N.shiftr ((x3 * 0x01010101) mod 2 ^ 32) 24)))).

(** id.rs:138-146: the bytes are reinterpreted as five native (little-endian)
    u32 words. *)
Definition id_word (id : ID) (k : nat) : N := of_le (firstn 4 (skipn (4 * k) id)).
Definition id_weight (id : ID) : res N :=
  rbind (hamming_weight (id_word id 0)) (fun w0 =>
  rbind (hamming_weight (id_word id 1)) (fun w1 =>
  rbind (u32_add w0 w1) (fun s1 =>
  rbind (hamming_weight (id_word id 2)) (fun w2 =>
  rbind (u32_add s1 w2) (fun s2 =>
  rbind (hamming_weight (id_word id 3)) (fun w3 =>
  rbind (u32_add s2 w3) (fun s3 =>
  rbind (hamming_weight (id_word id 4)) (fun w4 =>
  u32_add s3 w4)))))))).

(** id.rs:171-193 [Deserialize]: [try_into().unwrap()] panics on a byte string
    that is not 20 bytes long. *)
Definition id_deserialize (v : bytes) : res ID :=
  if length v =? ID_LEN then Val v else Panic.
(** id.rs:273-281 [From<Vec<u8>>] *)
Definition id_from_vec (v : bytes) : res ID :=
  if negb (length v =? ID_LEN) then Panic else Val v.

(** id.rs:218-231 [Ord::cmp] *)
Fixpoint ord_bits (l r : list bool) : comparison :=
  match l, r with
  | x :: l', y :: r' =>
    match x, y with
    | true, true => Eq
    | true, false => Gt
    | false, true => Lt
    | false, false => ord_bits l' r'
    end
  | _, _ => Eq
  end.
Definition id_cmp (a b : ID) : comparison := ord_bits (bit_iter a) (bit_iter b).

(** id.rs:233-245 [BitXor], 255-271 [Sub] *)
Fixpoint xor_bytes (a b : bytes) : bytes :=
  match a, b with
  | x :: a', y :: b' => n2b (N.lxor (b2n x) (b2n y)) :: xor_bytes a' b'
  | _, _ => []
  end.
Definition id_xor (a b : ID) : ID := xor_bytes a b.
Definition id_sub (a b : ID) : ID := id_xor a b.
