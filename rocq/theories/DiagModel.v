(** Model of what the program prints about identifiers and about messages that
    are cut short: /repo/src/data_structures/id.rs, impl Debug, and
    /repo/src/peers/connection/message.rs, the report in [from_buf]. *)
From Coq Require Import List NArith ZArith Lia Bool Arith.
From Coq Require Import Init.Byte.
From Verif Require Import Base IdModel WireModel.
Import ListNotations.
Set Implicit Arguments.

(** [{:08b}] of one byte (id.rs:198-199; the formatting itself is the standard
    library's, modelled from its documentation). *)
Definition bin8 (x : byte) : bytes :=
  map (fun k => if N.testbit (b2n x) k then x31 else x30) [7; 6; 5; 4; 3; 2; 1; 0]%N.
(** One digit of [{:02X?}] (id.rs:204). *)
Definition hex_digit (n : N) : byte := if (n <? 10)%N then n2b (48 + n) else n2b (55 + n).
(** [{byte:02X?}] (id.rs:204) *)
Definition hex2 (x : byte) : bytes := [hex_digit (b2n x / 16); hex_digit (b2n x mod 16)].
(** [self.0.chunks(4)] (id.rs:201) *)
Fixpoint chunks4 (l : bytes) : list bytes :=
  match l with
  | a :: b :: c :: d :: t => [a; b; c; d] :: chunks4 t
  | [] => []
  | t => [t]
  end.
(** id.rs:201-206 *)
Definition print_chunk (c : bytes) : bytes := x20 :: concat (map hex2 c).
(** id.rs:195-210; [self.0[0]], [self.0[1]] are inside the array for every
    [ID]. The text is built with a space in front, which [&rv[1..]] drops. *)
Definition id_debug (id : ID) : res bytes :=
  match nth_error id 0, nth_error id 1 with
  | Some a, Some b =>
    let rv := (x20 :: bin8 a ++ [x20]) ++ (bin8 b ++ [x20]) ++ concat (map print_chunk (chunks4 id)) in
    Val (skipn 1 rv)
  | _, _ => Panic
  end.

(** message.rs:90-97: [chunks_exact(5)] and [position]; [k] counts chunks. *)
Fixpoint zero_chunk (k : nat) (buf : bytes) : option nat :=
  match buf with
  | a :: b :: c :: d :: e :: t =>
    if Byte.eqb a x00 && Byte.eqb b x00 && Byte.eqb c x00 && Byte.eqb d x00 && Byte.eqb e x00 then Some k
    else zero_chunk (S k) t
  | _ => None
  end.
(** message.rs:89-98 *)
Definition first_zeros (buf : bytes) : option nat := option_map (fun idx => idx * 5) (zero_chunk 0 buf).
(** message.rs:85-102: what is reported: the announced length, the length of
    the buffer and where there are zeros; nothing if the message is whole. *)
Definition cut_report (buf : bytes) : res (option (N * nat * option nat)) :=
  rbind (u32_at buf 0) (fun len32 =>
  let len := (len32 + 4)%N in
  if (N.of_nat (length buf) <? len)%N then Val (Some (len, length buf, first_zeros buf)) else Val None).
