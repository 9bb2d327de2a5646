(** Model of the bencode tokeniser and writer used through the bendy crate
    (version 0.4.0-beta, /repo/Cargo.toml:11) by
    /repo/src/dht/krpc_message.rs:116-122, /repo/src/tracker/response.rs and
    /repo/src/transcoding/metainfo.rs. bendy is third-party code: this file
    models its documented grammar (canonical integers, dictionary keys strictly
    ascending, bounded nesting, bytes after the value ignored) and is part of
    the trusted base. *)
From Coq Require Import Decimal.
From Coq Require Import List NArith ZArith Lia Bool Arith.
From Coq Require Import Init.Byte.
From Verif Require Import Base.
Import ListNotations.
Set Implicit Arguments.

Inductive bval :=
| BInt (z : Z)
| BStr (s : bytes)
| BList (l : list bval)
| BDict (l : list (bytes * bval)).

(** ** decimal digits *)
Fixpoint uint_bytes (d : uint) : bytes :=
  match d with
  | Nil => []
  | D0 d => x30 :: uint_bytes d | D1 d => x31 :: uint_bytes d | D2 d => x32 :: uint_bytes d
  | D3 d => x33 :: uint_bytes d | D4 d => x34 :: uint_bytes d | D5 d => x35 :: uint_bytes d
  | D6 d => x36 :: uint_bytes d | D7 d => x37 :: uint_bytes d | D8 d => x38 :: uint_bytes d
  | D9 d => x39 :: uint_bytes d
  end.
Definition digit (b : byte) : option (uint -> uint) :=
  match b with
  | x30 => Some D0 | x31 => Some D1 | x32 => Some D2 | x33 => Some D3 | x34 => Some D4
  | x35 => Some D5 | x36 => Some D6 | x37 => Some D7 | x38 => Some D8 | x39 => Some D9
  | _ => None
  end.
Definition enc_num (n : N) : bytes := uint_bytes (N.to_uint n).
(** ** writing *)
Definition enc_str (s : bytes) : bytes := enc_num (N.of_nat (length s)) ++ x3a :: s.
Definition enc_int (z : Z) : bytes :=
  match z with
  | Z0 => [x69; x30; x65]
  | Zpos p => x69 :: enc_num (Npos p) ++ [x65]
  | Zneg p => x69 :: x2d :: enc_num (Npos p) ++ [x65]
  end.
Fixpoint enc (v : bval) : bytes :=
  match v with
  | BInt z => enc_int z
  | BStr s => enc_str s
  | BList l => x6c :: (fix go l := match l with [] => [x65] | v :: t => enc v ++ go t end) l
  | BDict l => x64 :: (fix go l := match l with [] => [x65] | (k, v) :: t => enc_str k ++ enc v ++ go t end) l
  end.
(** ** reading *)
(** Digits up to and including the terminator. *)
Fixpoint take_digits (term : byte) (s : bytes) : option (uint * bytes) :=
  match s with
  | [] => None
  | c :: t =>
    if Byte.eqb c term then Some (Nil, t)
    else match digit c with
         | Some D => match take_digits term t with Some (d, r) => Some (D d, r) | None => None end
         | None => None
         end
  end.
(** No leading zero, at least one digit. *)
Definition take_nat (term : byte) (s : bytes) : option (N * bytes) :=
  match s with
  | [] => None
  | c :: t =>
    if Byte.eqb c x30 then
      match t with
      | c' :: r => if Byte.eqb c' term then Some (0%N, r) else None
      | [] => None
      end
    else
      match digit c with
      | Some D => match take_digits term t with Some (d, r) => Some (N.of_uint (D d), r) | None => None end
      | None => None
      end
  end.
(** No negative zero. *)
Definition take_int (s : bytes) : option (Z * bytes) :=
  match s with
  | [] => None
  | c :: t =>
    if Byte.eqb c x2d then
      match take_nat x65 t with
      | Some (N0, _) => None
      | Some (n, r) => Some ((- Z.of_N n)%Z, r)
      | None => None
      end
    else match take_nat x65 s with Some (n, r) => Some (Z.of_N n, r) | None => None end
  end.
Definition take_str (s : bytes) : option (bytes * bytes) :=
  match take_nat x3a s with
  | Some (n, r) => if (N.of_nat (length r) <? n)%N then None else Some (firstn (N.to_nat n) r, skipn (N.to_nat n) r)
  | None => None
  end.
(** Lexicographic order of byte strings, [Ord for &[u8]]. *)
Fixpoint bytes_lt (a b : bytes) : bool :=
  match a, b with
  | [], [] => false
  | [], _ :: _ => true
  | _ :: _, [] => false
  | x :: a, y :: b => if (b2n x <? b2n y)%N then true else if (b2n y <? b2n x)%N then false else bytes_lt a b
  end.
Definition key_after (prev : option bytes) (k : bytes) : bool :=
  match prev with None => true | Some p => bytes_lt p k end.
(** [fuel] only makes the recursion structural (see [dec_fuel] in
    BencodeProofs); [depth] is the remaining nesting allowed. *)
Fixpoint dec_val (fuel depth : nat) (s : bytes) : option (bval * bytes) :=
  match fuel with
  | O => None
  | S f =>
    match s with
    | [] => None
    | c :: t =>
      if Byte.eqb c x69 then match take_int t with Some (z, r) => Some (BInt z, r) | None => None end
      else if Byte.eqb c x6c then
        match depth with
        | O => None
        | S d => match dec_list f d t with Some (l, r) => Some (BList l, r) | None => None end
        end
      else if Byte.eqb c x64 then
        match depth with
        | O => None
        | S d => match dec_dict f d None t with Some (l, r) => Some (BDict l, r) | None => None end
        end
      else match take_str s with Some (x, r) => Some (BStr x, r) | None => None end
    end
  end
with dec_list (fuel depth : nat) (s : bytes) : option (list bval * bytes) :=
  match fuel with
  | O => None
  | S f =>
    match s with
    | [] => None
    | c :: t =>
      if Byte.eqb c x65 then Some ([], t)
      else
        match dec_val f depth s with
        | Some (v, r) => match dec_list f depth r with Some (l, r) => Some (v :: l, r) | None => None end
        | None => None
        end
    end
  end
with dec_dict (fuel depth : nat) (prev : option bytes) (s : bytes) : option (list (bytes * bval) * bytes) :=
  match fuel with
  | O => None
  | S f =>
    match s with
    | [] => None
    | c :: t =>
      if Byte.eqb c x65 then Some ([], t)
      else
        match take_str s with
        | Some (k, r) =>
          if key_after prev k then
            match dec_val f depth r with
            | Some (v, r) => match dec_dict f depth (Some k) r with Some (l, r) => Some ((k, v) :: l, r) | None => None end
            | None => None
            end
          else None
        | None => None
        end
    end
  end.
(** bendy's default nesting limit *)
Definition MAX_DEPTH : nat := 2048.
Definition decode_at (depth : nat) (s : bytes) : option (bval * bytes) := dec_val (2 * length s + 2) depth s.
Definition decode (s : bytes) : option (bval * bytes) := decode_at MAX_DEPTH s.
