(** Vocabulary for the interval property: the number a float stands for. *)
From Coq Require Import List ZArith NArith Lia Bool Floats.SpecFloat.
From Verif Require Import Base IntervalModel.
Import ListNotations.
Set Implicit Arguments.

(** A finite binary64 number is a multiple of 2^-1074; this is the multiple. *)
Definition units (x : f64) : option Z :=
  match x with
  | S754_zero _ => Some 0%Z
  | S754_finite s m e => Some ((if s then -1 else 1) * (Zpos m * 2 ^ (e + 1074)))%Z
  | _ => None
  end.
Definition ONE : Z := 2 ^ 1074.
(** x <= y, as extended numbers; false of NaN. *)
Definition no_more (x y : f64) : Prop :=
  x <> S754_nan /\ y <> S754_nan /\
  (x = S754_infinity true \/ y = S754_infinity false \/ exists a b, units x = Some a /\ units y = Some b /\ (a <= b)%Z).
(** [ns] is [x] seconds, to within half a nanosecond. *)
Definition nanoseconds (x : f64) (ns : N) : Prop :=
  exists a, units x = Some a /\ (2 * Z.abs (Z.of_N ns * ONE - a * 1000000000) <= ONE)%Z.
(** [x] is the smaller of [a] and [b]. *)
Definition smaller (x a b : f64) : Prop := (x = a /\ no_more a b) \/ (x = b /\ no_more b a).
(** From 0 up to 2^64 - 1 seconds. *)
Definition sensible (x : f64) : Prop := exists a, units x = Some a /\ (0 <= a <= (2 ^ 64 - 1) * ONE)%Z.
Definition negative (x : f64) : Prop := x = S754_infinity true \/ exists a, units x = Some a /\ (a < 0)%Z.
(** The formula at the first [n] counts: numbers at all. *)
Definition proper (f : f64 -> f64) (n : nat) : Prop := forall k, k < n -> f64_ok (f (f64_of_nat k)) = true.
Definition growing (f : f64 -> f64) (n : nat) : Prop := forall k, S k < n -> no_more (f (f64_of_nat k)) (f (f64_of_nat (S k))).
