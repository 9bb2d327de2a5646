(** C39: bencode. *)
From Coq Require Import Decimal DecimalN.
From Coq Require Import List NArith ZArith Lia Bool Arith Sorted.
From Coq Require Import Init.Byte.
From Verif Require Import Base BencodeModel BencodeSpec BencodeProofs.
Import ListNotations.
Set Implicit Arguments.

(** What a string of decimal digits denotes. *)
Definition digits_value (s : bytes) : N := fold_left (fun acc b => 10 * acc + (b2n b - 48))%N s 0%N.
Definition is_digit (b : byte) : Prop := (48 <= b2n b <= 57)%N.
Lemma digits_acc : forall d acc, fold_left (fun acc b => 10 * acc + (b2n b - 48))%N (uint_bytes d) (Npos acc) = Npos (Pos.of_uint_acc d acc).
Proof.
  induction d; intro acc; cbn [uint_bytes fold_left Pos.of_uint_acc]; auto; rewrite <- IHd; f_equal;
    match goal with |- context [b2n ?b] => change (b2n b) with (Byte.to_N b) end; cbn [Byte.to_N]; lia.
Qed.
Lemma digits_uint : forall d, digits_value (uint_bytes d) = N.of_uint d.
Proof.
  unfold digits_value, N.of_uint. induction d; cbn [uint_bytes fold_left Pos.of_uint]; auto; try (rewrite <- digits_acc; reflexivity).
Qed.
(** Numbers are written in decimal without leading zeros. *)
Theorem C39_decimal : forall n, digits_value (enc_num n) = n /\ Forall is_digit (enc_num n) /\
  (forall t, enc_num n = x30 :: t -> n = 0%N /\ t = []) /\ enc_num n <> [].
Proof.
  intro n. split; [unfold enc_num; rewrite digits_uint; apply DecimalN.Unsigned.of_to|]. split.
  - unfold enc_num. generalize (N.to_uint n). unfold is_digit. induction u; cbn [uint_bytes]; constructor; auto; vm_compute; split; discriminate.
  - destruct (enc_num_cons n) as (c & t & D & E & _ & Z). rewrite E. split; [|discriminate]. intros t' H. injection H as -> <-.
    specialize (Z eq_refl). subst n. split; auto. vm_compute in E. injection E as <-. reflexivity.
Qed.
(** Every value with ascending keys, at any nesting within the limit, is read
    back, whatever bytes follow it. *)
Theorem C39_round_trip : forall depth v tl, ordered v -> nest v <= depth -> decode_at depth (enc v ++ tl) = Some (v, tl).
Proof. exact decode_enc. Qed.
(** Only canonical encodings are accepted. *)
Theorem C39_canonical : forall depth s v tl, decode_at depth s = Some (v, tl) -> s = enc v ++ tl /\ ordered v /\ nest v <= depth.
Proof. exact decode_inv. Qed.
(** So an encoding determines its value, and no encoding is a proper prefix of
    another. *)
Theorem C39_unique : forall v w a b, ordered v -> ordered w -> enc v ++ a = enc w ++ b -> v = w /\ a = b.
Proof.
  intros v w a b Ov Ow E. pose proof (@decode_enc (nest v + nest w) v a Ov ltac:(lia)) as D1.
  pose proof (@decode_enc (nest v + nest w) w b Ow ltac:(lia)) as D2. rewrite E in D1. rewrite D1 in D2. injection D2 as -> ->. auto.
Qed.
(** What is too deep or out of order is refused. *)
Theorem C39_refused : forall depth v tl, ordered v -> depth < nest v -> decode_at depth (enc v ++ tl) = None.
Proof.
  intros depth v tl O D. destruct (decode_at depth (enc v ++ tl)) as [[w r]|] eqn:E; auto. apply decode_inv in E. destruct E as (E & Ow & N).
  destruct (@C39_unique v w tl r O Ow E) as (-> & _). lia.
Qed.
Definition ex39 : bval := BDict [([x61], BInt (-42)%Z); ([x61; x62], BList [BStr []; BInt 0%Z]); ([x62], BDict [])].
Example C39_example : ordered ex39 /\ nest ex39 = 2 /\
  enc ex39 = [x64; x31; x3a; x61; x69; x2d; x34; x32; x65; x32; x3a; x61; x62; x6c; x30; x3a; x69; x30; x65; x65; x31; x3a; x62; x64; x65; x65] /\
  decode (enc ex39 ++ [x65; x00]) = Some (ex39, [x65; x00]) /\
  decode [x69; x30; x31; x65] = None /\ decode [x69; x2d; x30; x65] = None /\
  decode [x64; x31; x3a; x62; x30; x3a; x31; x3a; x61; x30; x3a; x65] = None.
Proof.
  split; [|vm_compute; auto 10]. unfold ex39. constructor.
  - repeat (apply Forall_cons || apply Forall_nil); cbn [snd]; repeat constructor.
  - cbn [map fst]. repeat (apply Sorted_cons || apply Sorted_nil || apply HdRel_cons || apply HdRel_nil); apply bytes_lt_lex; reflexivity.
Qed.
Print Assumptions C39_decimal.
Print Assumptions C39_round_trip.
Print Assumptions C39_canonical.
Print Assumptions C39_unique.
Print Assumptions C39_refused.
