(** Text: UTF-8 (RFC 3629) as a way to write characters, independent of the
    checker of KrpcModel.v. *)
From Coq Require Import List NArith.
From Verif Require Import Base.
Import ListNotations.

(** A character is a Unicode scalar value: no surrogate, at most U+10FFFF. *)
Definition scalar (n : N) : Prop := (n < 0xd800 \/ (0xe000 <= n /\ n < 0x110000))%N.
(** The bytes of a character: one to four, the leading one tells how many, six
    bits in each of the others. *)
Definition utf8_char (n : N) : bytes :=
  if (n <? 0x80)%N then [n2b n]
  else if (n <? 0x800)%N then [n2b (0xc0 + n / 64); n2b (0x80 + n mod 64)]
  else if (n <? 0x10000)%N then [n2b (0xe0 + n / 4096); n2b (0x80 + n / 64 mod 64); n2b (0x80 + n mod 64)]
  else [n2b (0xf0 + n / 262144); n2b (0x80 + n / 4096 mod 64); n2b (0x80 + n / 64 mod 64); n2b (0x80 + n mod 64)].
(** Text is a sequence of characters. *)
Definition utf8 (s : bytes) : Prop := exists l, Forall scalar l /\ s = flat_map utf8_char l.
