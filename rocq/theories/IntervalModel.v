(** Model of /repo/src/capped_growing_interval.rs. [f64] is the standard
    library's [spec_float] with the parameters of binary64; the growth formula is
    any function of it. *)
From Coq Require Import List ZArith NArith Lia Bool Floats.SpecFloat.
From Verif Require Import Base.
Import ListNotations.
Set Implicit Arguments.

Definition f64 : Type := spec_float.
Definition PREC : Z := 53.
Definition EMAX : Z := 1024.
Definition f64_ok (x : f64) : bool := valid_binary PREC EMAX x.
(** [usize as f64] *)
Definition f64_of_nat (n : nat) : f64 := binary_normalize PREC EMAX (Z.of_nat n) 0 false.
Definition f64_of_Z (z e : Z) : f64 := binary_normalize PREC EMAX z e false.
Definition f64_add : f64 -> f64 -> f64 := SFadd PREC EMAX.
Definition f64_mul : f64 -> f64 -> f64 := SFmul PREC EMAX.
Definition f64_div : f64 -> f64 -> f64 := SFdiv PREC EMAX.

(** [[a, b].into_iter().min_by(|a, b| a.partial_cmp(b).unwrap()).unwrap()]: the
    first of equal ones; NaN panics. *)
Definition min_by (a b : f64) : res f64 :=
  match SFcompare a b with
  | Some Gt => Val b
  | Some _ => Val a
  | None => Panic
  end.
(** To the nearest integer, ties to even, of [a / b]. *)
Definition round_div (a b : Z) : Z :=
  let q := (a / b)%Z in
  let r := (a mod b)%Z in
  match (2 * r ?= b)%Z with Lt => q | Gt => q + 1 | Eq => if Z.even q then q else q + 1 end%Z.
(** [Duration::from_secs_f64], in nanoseconds: negative, NaN, infinite and
    (nearly) 2^64 seconds or more panic. *)
Definition from_secs_f64 (x : f64) : res N :=
  match x with
  | S754_zero _ => Val 0%N
  | S754_finite false m e =>
    let ns := if (0 <=? e)%Z then (Zpos m * 2 ^ e * 1000000000)%Z else round_div (Zpos m * 1000000000) (2 ^ (- e)) in
    if (ns <? 18446744073709551616 * 1000000000)%Z then Val (Z.to_N ns) else Panic
  | _ => Panic
  end.

(** capped_growing_interval.rs:3-7 *)
Record cgi := mk_cgi { c_formula : f64 -> f64; c_count : nat; c_max : f64 }.
(** 10-16 *)
Definition cgi_new (max : f64) (formula : f64 -> f64) : cgi := mk_cgi formula 0 max.
(** 19-24: how long a tick that starts now sleeps, in ns. *)
Definition cgi_sleep (c : cgi) : res N :=
  rbind (min_by (c_formula c (f64_of_nat (c_count c))) (c_max c)) from_secs_f64.
(** 26: after the sleep *)
Definition cgi_ticked (c : cgi) : cgi := mk_cgi (c_formula c) (S (c_count c)) (c_max c).
(** A whole [tick]. *)
Definition cgi_tick (c : cgi) : res (cgi * N) := rmap (fun d => (cgi_ticked c, d)) (cgi_sleep c).
(** The sleeps of [n] ticks in a row, none interrupted (as in peer_fetcher.rs:69-73). *)
Fixpoint cgi_ticks (n : nat) (c : cgi) : res (list N) :=
  match n with
  | 0 => Val []
  | S n => rbind (cgi_tick c) (fun r => rmap (cons (snd r)) (cgi_ticks n (fst r)))
  end.

(** The use in the DHT task (dht_manager.rs:51-67): [select!] starts a new tick in
    every turn of the loop and drops it when anything else happens first; only a
    tick that ran to its end counts and leads to a refresh. [gaps]: for each turn,
    how many ns pass before something else is ready; [None]: nothing is. If both
    are ready at once either may win ([select!] picks at random): [race] says
    which. Result: the refreshes, one boolean per turn. *)
Definition turn (race : bool) (gap : option N) (c : cgi) : res (cgi * bool) :=
  rbind (cgi_sleep c) (fun d =>
    match gap with
    | None => Val (cgi_ticked c, true)
    | Some g => match (g ?= d)%N with
                | Lt => Val (c, false)
                | Gt => Val (cgi_ticked c, true)
                | Eq => if race then Val (cgi_ticked c, true) else Val (c, false)
                end
    end).
Fixpoint turns (gaps : list (bool * option N)) (c : cgi) : res (cgi * list bool) :=
  match gaps with
  | [] => Val (c, [])
  | (race, gap) :: t => rbind (turn race gap c) (fun r => rmap (fun q => (fst q, snd r :: snd q)) (turns t (fst r)))
  end.
(** dht_manager.rs:25-27; [powf(3.0)] is taken as two multiplications. *)
Definition DHT_MAX : f64 := f64_of_Z 200 0.
Definition DHT_GROWTH (x : f64) : f64 :=
  f64_add (f64_of_Z 3 0) (f64_mul (f64_div (f64_of_Z 4 0) (f64_of_Z 100 0)) (f64_mul x (f64_mul x x))).
