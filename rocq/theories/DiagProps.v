(** C121, C122: what is printed about identifiers and cut messages. *)
From Coq Require Import List NArith ZArith Lia Bool Arith.
From Coq Require Import Init.Byte.
From Verif Require Import Base IdModel WireModel DiagModel.
Import ListNotations.
Set Implicit Arguments.

(** ** Reading the printed form *)
(** The digits 0-9, A-F in order. *)
Definition digits : bytes := [x30; x31; x32; x33; x34; x35; x36; x37; x38; x39; x41; x42; x43; x44; x45; x46].
Definition digit_for (n : N) (c : byte) : Prop := nth_error digits (N.to_nat n) = Some c.
(** The printed form: the first sixteen bits one by one, then every byte in two
    digits, in groups of four; blanks in between. *)
Record shows (id : ID) (t : bytes) : Prop := {
  sh_size : length t = 63;
  sh_bits : forall i v, i < 16 -> get_bit id i = Val v -> nth_error t (i + i / 8) = Some (if v then x31 else x30);
  sh_bytes : forall i x, nth_error id i = Some x ->
    exists c d, nth_error t (19 + 2 * i + i / 4) = Some c /\ nth_error t (20 + 2 * i + i / 4) = Some d /\
                digit_for (b2n x / 16) c /\ digit_for (b2n x mod 16) d;
  sh_blank : forall k, In k [8; 17; 18; 27; 36; 45; 54] -> nth_error t k = Some x20 }.

Lemma hex_digit_for : forall x, digit_for (b2n x / 16) (hex_digit (b2n x / 16)) /\ digit_for (b2n x mod 16) (hex_digit (b2n x mod 16)).
Proof. intro x. destruct x; split; vm_compute; reflexivity. Qed.
Lemma bit_of_byte : forall x j, j < 8 -> nth_error (bin8 x) j = Some (if (0 <? N.land (bit_filter j) (b2n x))%N then x31 else x30).
Proof. intros x j H. do 8 (destruct j as [|j]; [destruct x; vm_compute; reflexivity|]). lia. Qed.
Lemma bin8_length : forall x, length (bin8 x) = 8.
Proof. reflexivity. Qed.
Theorem C121_shows : forall id, wf_id id -> exists t, id_debug id = Val t /\ shows id t.
Proof.
  intros id W. unfold wf_id, ID_LEN in W. do 20 (destruct id as [|? id]; [discriminate W|]). destruct id; [|discriminate W]. clear W.
  eexists. split; [reflexivity|]. split.
  - reflexivity.
  - intros i v H G. unfold get_bit in G. destruct (Nat.lt_ge_cases i 8) as [L|L].
    + rewrite (Nat.div_small i 8) in * by lia. rewrite (Nat.mod_small i 8) in G by lia. cbn [nth_error] in G. injection G as <-.
      rewrite <- bit_of_byte by lia. rewrite Nat.add_0_r. cbn [skipn app]. rewrite <- app_assoc. apply nth_error_app1. exact L.
    + assert (Q : i / 8 = 1) by (symmetry; apply (Nat.div_unique i 8 1 (i - 8)); lia). assert (R : i mod 8 = i - 8) by (rewrite Nat.mod_eq by lia; lia).
      rewrite Q, R in *. cbn [nth_error] in G. injection G as <-. rewrite <- bit_of_byte by lia.
      cbn [skipn app]. rewrite <- !app_assoc, nth_error_app2 by (rewrite bin8_length; lia). rewrite bin8_length. cbn [app].
      replace (i + 1 - 8) with (S (i - 8)) by lia. cbn [nth_error]. apply nth_error_app1. rewrite bin8_length. lia.
  - intros i x H. pose proof (hex_digit_for x) as (D1 & D2). exists (hex_digit (b2n x / 16)), (hex_digit (b2n x mod 16)).
    do 20 (destruct i as [|i]; [cbn in H; injection H as <-; repeat split; auto|]). destruct i; discriminate H.
  - intros k I. repeat (destruct I as [<-|I]; [reflexivity|]). destruct I.
Qed.
Lemma digit_inj : forall a b c, (a < 16)%N -> (b < 16)%N -> digit_for a c -> digit_for b c -> a = b.
Proof.
  intros a b c A B X Y. assert (N : NoDup digits). { unfold digits. repeat (constructor; [cbn; intuition discriminate|]). constructor. }
  unfold digit_for in *. assert (N.to_nat a = N.to_nat b); [|lia].
  apply (proj1 (NoDup_nth_error digits) N); [cbn; lia|congruence].
Qed.
Lemma same_by_index : forall (a b : bytes), (forall i, nth_error a i = nth_error b i) -> a = b.
Proof.
  induction a as [|x a IH]; intros [|y b] H; auto; try (specialize (H 0); discriminate H).
  pose proof (H 0) as H0. cbn in H0. injection H0 as ->. f_equal. apply IH. intro i. exact (H (S i)).
Qed.
(** Two identifiers are printed alike only if they are the same. *)
Theorem C121_distinct : forall a b, wf_id a -> wf_id b -> id_debug a = id_debug b -> a = b.
Proof.
  intros a b A B E. destruct (C121_shows A) as (t & TA & SA). destruct (C121_shows B) as (u & TB & SB).
  assert (u = t) by congruence. subst u. apply same_by_index. intro i.
  destruct (nth_error a i) as [x|] eqn:X; destruct (nth_error b i) as [y|] eqn:Y; auto.
  - f_equal. destruct (sh_bytes SA _ X) as (c & d & C1 & D1 & C2 & D2). destruct (sh_bytes SB _ Y) as (c' & d' & C1' & D1' & C2' & D2').
    rewrite C1 in C1'. injection C1' as <-. rewrite D1 in D1'. injection D1' as <-. pose proof (b2n_lt x). pose proof (b2n_lt y).
    assert (H1 : (b2n x / 16 = b2n y / 16)%N) by (apply (@digit_inj _ _ c); auto; apply N.div_lt_upper_bound; lia).
    assert (H2 : (b2n x mod 16 = b2n y mod 16)%N) by (apply (@digit_inj _ _ d); auto; apply N.mod_lt; lia).
    rewrite <- (n2b_b2n x), <- (n2b_b2n y). f_equal. rewrite (N.div_mod (b2n x) 16), (N.div_mod (b2n y) 16) by lia. congruence.
  - apply nth_error_None in Y. assert (i < length a) by (apply nth_error_Some; congruence). unfold wf_id in *. lia.
  - apply nth_error_None in X. assert (i < length b) by (apply nth_error_Some; congruence). unfold wf_id in *. lia.
Qed.
Example C121_example : wf_id (x4a :: repeat x0f 19) /\ exists t, id_debug (x4a :: repeat x0f 19) = Val t /\ firstn 24 t =
  [x30; x31; x30; x30; x31; x30; x31; x30; x20; x30; x30; x30; x30; x31; x31; x31; x31; x20; x20; x34; x41; x30; x46; x30].
Proof. split; [reflexivity|]. eexists. split; vm_compute; reflexivity. Qed.

(** ** Where the zeros are *)
Definition zeros_at (buf : bytes) (n p : nat) : Prop := forall j, j < n -> nth_error buf (p + j) = Some x00.
Definition first_run (buf : bytes) (p : nat) : Prop := zeros_at buf 5 p /\ forall q, q < p -> ~ zeros_at buf 5 q.
Lemma zeros_skip : forall pre buf n p, length pre <= p -> (zeros_at (pre ++ buf) n p <-> zeros_at buf n (p - length pre)).
Proof.
  intros pre buf n p L. unfold zeros_at. split; intros H j J; specialize (H j J).
  - rewrite nth_error_app2 in H by lia. rewrite <- H. f_equal. lia.
  - rewrite nth_error_app2 by lia. rewrite <- H. f_equal. lia.
Qed.
Lemma zero_chunk_exact : forall n buf k, length buf <= n ->
  match zero_chunk k buf with
  | Some m => k <= m /\ zeros_at buf 5 (5 * (m - k)) /\ forall i, i < m - k -> ~ zeros_at buf 5 (5 * i)
  | None => forall i, ~ zeros_at buf 5 (5 * i)
  end.
Proof.
  assert (SHORT : forall buf, length buf < 5 -> forall i, ~ zeros_at buf 5 (5 * i)).
  { intros buf L i Z. specialize (Z 4 ltac:(lia)). assert (5 * i + 4 < length buf) by (apply nth_error_Some; congruence). lia. }
  induction n as [|n IH]; intros buf k L; destruct buf as [|a [|b [|c [|d [|e t]]]]]; try (cbn [zero_chunk]; apply SHORT; cbn; lia); [cbn in L; lia|].
  cbn [zero_chunk]. destruct (Byte.eqb a x00 && Byte.eqb b x00 && Byte.eqb c x00 && Byte.eqb d x00 && Byte.eqb e x00) eqn:E.
  - repeat rewrite andb_true_iff in E. destruct E as ((((E1 & E2) & E3) & E4) & E5). apply Byte.byte_dec_bl in E1, E2, E3, E4, E5. subst.
    rewrite Nat.sub_diag. split; [lia|]. split; [|lia]. intros j J. do 5 (destruct j as [|j]; [reflexivity|]). lia.
  - assert (HD : ~ zeros_at (a :: b :: c :: d :: e :: t) 5 0).
    { intro Z. pose proof (Z 0 ltac:(lia)) as Z0. pose proof (Z 1 ltac:(lia)) as Z1. pose proof (Z 2 ltac:(lia)) as Z2. pose proof (Z 3 ltac:(lia)) as Z3. pose proof (Z 4 ltac:(lia)) as Z4.
      cbn in Z0, Z1, Z2, Z3, Z4. injection Z0 as ->. injection Z1 as ->. injection Z2 as ->. injection Z3 as ->. injection Z4 as ->. discriminate E. }
    assert (SK : forall i, zeros_at (a :: b :: c :: d :: e :: t) 5 (5 * S i) <-> zeros_at t 5 (5 * i)).
    { intro i. rewrite (@zeros_skip [a; b; c; d; e] t 5 (5 * S i)) by (cbn; lia). cbn [length]. replace (5 * S i - 5) with (5 * i) by lia. reflexivity. }
    specialize (IH t (S k) ltac:(cbn in L; lia)). destruct (zero_chunk (S k) t) as [m|].
    + destruct IH as (I1 & I2 & I3). split; [lia|]. split.
      * replace (m - k) with (S (m - S k)) by lia. apply SK. exact I2.
      * intros [|i] H; [exact HD|]. rewrite SK. apply I3. lia.
    + intros [|i]; [exact HD|]. rewrite SK. apply IH.
Qed.
(** Exactly which position is reported. *)
Theorem C122_exact : forall buf,
  (forall p, first_zeros buf = Some p <-> p mod 5 = 0 /\ zeros_at buf 5 p /\ forall q, q < p -> q mod 5 = 0 -> ~ zeros_at buf 5 q) /\
  (first_zeros buf = None <-> forall q, q mod 5 = 0 -> ~ zeros_at buf 5 q).
Proof.
  intro buf. pose proof (@zero_chunk_exact (length buf) buf 0 ltac:(lia)) as Z. unfold first_zeros.
  assert (M : forall q, q mod 5 = 0 -> q = 5 * (q / 5)) by (intros q Q; pose proof (Nat.div_mod q 5 ltac:(lia)); lia).
  destruct (zero_chunk 0 buf) as [m|]; cbn [option_map].
  - destruct Z as (_ & Z1 & Z2). rewrite Nat.sub_0_r in *. split.
    + intro p. split.
      * intro E. injection E as <-. rewrite Nat.mul_comm. split; [rewrite Nat.mul_comm; apply Nat.mod_mul; lia|]. split; [exact Z1|].
        intros q L Q. rewrite (M q Q). apply Z2. pose proof (M q Q). lia.
      * intros (P1 & P2 & P3). f_equal. rewrite (M p P1) in *. set (u := p / 5) in *. destruct (Nat.lt_trichotomy m u) as [L|[->|L]]; [|lia|].
        -- exfalso. apply (P3 (5 * m)); [lia|rewrite Nat.mul_comm; apply Nat.mod_mul; lia|exact Z1].
        -- exfalso. apply (Z2 u L). exact P2.
    + split; [discriminate|]. intro N. exfalso. apply (N (5 * m)); [rewrite Nat.mul_comm; apply Nat.mod_mul; lia|exact Z1].
  - split.
    + intro p. split; [discriminate|]. intros (P1 & P2 & _). exfalso. apply (Z (p / 5)). rewrite <- (M p P1). exact P2.
    + split; [|reflexivity]. intros _ q Q. rewrite (M q Q). apply Z.
Qed.
(** The report is made exactly for messages that are cut short. *)
Theorem C122_reported : forall buf n, message_len_field buf = Val n ->
  ((exists r, cut_report buf = Val (Some r)) <-> (N.of_nat (length buf) < n + 4)%N) /\
  (forall len l z, cut_report buf = Val (Some (len, l, z)) -> len = (n + 4)%N /\ l = length buf /\ z = first_zeros buf /\ from_buf buf = Val None).
Proof.
  intros buf n H. unfold message_len_field in H. unfold cut_report, from_buf. rewrite H. cbn [rbind].
  destruct (N.ltb_spec (N.of_nat (length buf)) (n + 4)) as [L|L]; split.
  - split; eauto.
  - intros len l z X. injection X as <- <- <-. auto.
  - split; [intros (r & X); discriminate|lia].
  - discriminate.
Qed.
(** What is reported is there; and the first five zeros are within four bytes of
    it if they start at a multiple of five or there are nine of them. *)
Theorem C122_near_partial : forall buf,
  (forall p, first_zeros buf = Some p -> zeros_at buf 5 p) /\
  (forall q, first_run buf q -> q mod 5 = 0 \/ zeros_at buf 9 q -> exists p, first_zeros buf = Some p /\ q <= p <= q + 4) /\
  (forall p q, first_zeros buf = Some p -> first_run buf q -> q <= p).
Proof.
  intro buf. destruct (C122_exact buf) as (X & Y).
  assert (LE : forall p q, first_zeros buf = Some p -> first_run buf q -> q <= p).
  { intros p q P (Q1 & Q2). apply X in P. destruct P as (_ & P & _). destruct (Nat.le_gt_cases q p) as [L|L]; [exact L|]. exfalso. exact (Q2 p L P). }
  split; [intros p P; apply X in P; tauto|]. split; [|exact LE]. intros q F H.
  assert (A : exists r, r mod 5 = 0 /\ q <= r <= q + 4 /\ zeros_at buf 5 r).
  { destruct H as [H|H]; [exists q; split; [exact H|]; split; [lia|apply F]|].
    exists (5 * ((q + 4) / 5)). pose proof (Nat.div_mod (q + 4) 5 ltac:(lia)) as D. pose proof (Nat.mod_upper_bound (q + 4) 5 ltac:(lia)) as U.
    split; [rewrite Nat.mul_comm; apply Nat.mod_mul; lia|]. assert (B : q <= 5 * ((q + 4) / 5) <= q + 4) by lia. split; [exact B|].
    intros j J. set (r := 5 * ((q + 4) / 5)) in *. specialize (H (r + j - q) ltac:(lia)). rewrite <- H. f_equal. lia. }
  destruct A as (r & R1 & R2 & R3). destruct (first_zeros buf) as [p|] eqn:P.
  - exists p. split; [reflexivity|]. split; [apply LE; auto|]. destruct (proj1 (X p) eq_refl) as (P1 & P2 & P3).
    destruct (Nat.le_gt_cases p r) as [L|L]; [lia|]. exfalso. exact (P3 r L R1 R3).
  - exfalso. apply (proj1 Y eq_refl r R1 R3).
Qed.
Example C122_example : exists buf, first_run buf 6 /\ zeros_at buf 9 6 /\ cut_report buf = Val (Some ((2 ^ 24 + 4)%N, 15, Some 10)).
Proof.
  exists ([x01; x00; x00; x00; x07; x01] ++ repeat x00 9). split; [|split].
  - split; [intros j J; do 5 (destruct j as [|j]; [reflexivity|]); lia|].
    intros q Q Z. do 6 (destruct q as [|q]; [pose proof (Z 0 ltac:(lia)) as A; pose proof (Z 1 ltac:(lia)) as B; pose proof (Z 2 ltac:(lia)) as C; pose proof (Z 3 ltac:(lia)) as D; pose proof (Z 4 ltac:(lia)) as F; cbn in A, B, C, D, F; discriminate|]). lia.
  - intros j J. do 9 (destruct j as [|j]; [reflexivity|]). lia.
  - vm_compute. reflexivity.
Qed.
(** Five zeros that do not start at a multiple of five are missed: the position
    reported can be far behind, or there is none. *)
Theorem C122_far_refuted : forall n, exists buf p, first_run buf 1 /\ first_zeros buf = Some p /\ 1 + n < p.
Proof.
  intro n. set (m := n + 1). exists ([x01; x00; x00; x00; x00; x00] ++ repeat x01 (5 * m + 4) ++ repeat x00 5), (10 + 5 * m).
  split; [|split; [|lia]].
  - split; [intros j J; do 5 (destruct j as [|j]; [reflexivity|]); lia|]. intros q Q Z. assert (q = 0) by lia. subst q. specialize (Z 0 ltac:(lia)). discriminate Z.
  - apply (proj1 (C122_exact _)). split; [replace (10 + 5 * m) with ((2 + m) * 5) by lia; apply Nat.mod_mul; lia|]. split.
    + intros j J. rewrite nth_error_app2 by (cbn [length]; lia). rewrite nth_error_app2 by (rewrite repeat_length; cbn [length]; lia). rewrite repeat_length. cbn [length].
      replace (10 + 5 * m + j - 6 - (5 * m + 4)) with j by lia. do 5 (destruct j as [|j]; [reflexivity|]). lia.
    + intros q L M Z. pose proof (Nat.div_mod q 5 ltac:(lia)) as D. rewrite M in D. destruct (Nat.eq_dec q 0) as [->|N0]; [specialize (Z 0 ltac:(lia)); discriminate Z|].
      assert (q = 5 * (q / 5)) by lia. assert (1 <= q / 5) by lia. specialize (Z 4 ltac:(lia)).
      destruct (Nat.eq_dec (q / 5) 1) as [E1|E1].
      * replace (q + 4) with (6 + 3) in Z by lia. rewrite nth_error_app2 in Z by (cbn [length]; lia). cbn [length] in Z.
        rewrite nth_error_app1 in Z by (rewrite repeat_length; lia). replace (6 + 3 - 6) with 3 in Z by lia.
        rewrite (@nth_error_nth' _ _ _ x01) in Z by (rewrite repeat_length; lia). rewrite nth_repeat in Z. discriminate Z.
      * assert (q / 5 < 2 + m) by lia. rewrite nth_error_app2 in Z by (cbn [length]; lia). cbn [length] in Z.
        rewrite nth_error_app1 in Z by (rewrite repeat_length; lia).
        rewrite (@nth_error_nth' _ _ _ x01) in Z by (rewrite repeat_length; lia). rewrite nth_repeat in Z. discriminate Z.
Qed.
Theorem C122_missed_refuted : exists buf, first_run buf 1 /\ cut_report buf = Val (Some ((2 ^ 24 + 4)%N, 6, None)).
Proof.
  exists [x01; x00; x00; x00; x00; x00]. split; [|vm_compute; reflexivity].
  split; [intros j J; do 5 (destruct j as [|j]; [reflexivity|]); lia|]. intros q Q Z. assert (q = 0) by lia. subst q. specialize (Z 0 ltac:(lia)). discriminate Z.
Qed.
Print Assumptions C121_shows.
Print Assumptions C121_distinct.
Print Assumptions C122_exact.
Print Assumptions C122_reported.
Print Assumptions C122_near_partial.
Print Assumptions C122_far_refuted.
Print Assumptions C122_missed_refuted.
