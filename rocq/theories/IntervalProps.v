(** C59: waits grow and are capped; C85: the refresh of the DHT task. *)
From Coq Require Import List ZArith NArith Lia Bool Floats.SpecFloat.
From Verif Require Import Base IntervalModel IntervalSpec.
Import ListNotations.
Set Implicit Arguments.

(** ** comparing floats *)
Lemma digits_bound : forall m, (2 ^ (Zpos (digits2_pos m) - 1) <= Zpos m < 2 ^ Zpos (digits2_pos m))%Z.
Proof.
  induction m as [m IH|m IH|]; cbn [digits2_pos]; [| |cbn; lia].
  - rewrite Pos2Z.inj_succ. replace (Z.succ (Zpos (digits2_pos m)) - 1)%Z with (Z.succ (Zpos (digits2_pos m) - 1)) by lia. rewrite !Z.pow_succ_r by lia. lia.
  - rewrite Pos2Z.inj_succ. replace (Z.succ (Zpos (digits2_pos m)) - 1)%Z with (Z.succ (Zpos (digits2_pos m) - 1)) by lia. rewrite !Z.pow_succ_r by lia. lia.
Qed.
Lemma bounded_facts : forall m e, bounded PREC EMAX m e = true -> (-1074 <= e <= 971)%Z /\ (Zpos (digits2_pos m) <= 53)%Z /\ (e = -1074 \/ Zpos (digits2_pos m) = 53)%Z.
Proof.
  intros m e H. unfold bounded in H. apply andb_prop in H. destruct H as (H1 & H2). apply Zle_bool_imp_le in H2. unfold canonical_mantissa in H1. apply Zeq_bool_eq in H1.
  unfold fexp, emin, PREC, EMAX in *. lia.
Qed.
Lemma exp_lt : forall m1 e1 m2 e2, bounded PREC EMAX m1 e1 = true -> bounded PREC EMAX m2 e2 = true -> (e1 < e2)%Z ->
  (Zpos m1 * 2 ^ (e1 + 1074) < Zpos m2 * 2 ^ (e2 + 1074))%Z.
Proof.
  intros m1 e1 m2 e2 B1 B2 L. apply bounded_facts in B1, B2. destruct B1 as (R1 & D1 & _). destruct B2 as (R2 & D2 & [X|X]); [lia|].
  pose proof (digits_bound m1) as (_ & M1). pose proof (digits_bound m2) as (M2 & _). rewrite X in M2.
  assert (M1' : (Zpos m1 < 2 ^ 53)%Z) by (eapply Z.lt_le_trans; [exact M1|]; apply Z.pow_le_mono_r; lia).
  assert (P1 : (0 < 2 ^ (e1 + 1074))%Z) by (apply Z.pow_pos_nonneg; lia).
  apply Z.lt_le_trans with (2 ^ 53 * 2 ^ (e1 + 1074))%Z; [apply Z.mul_lt_mono_pos_r; auto|].
  replace (e2 + 1074)%Z with ((e1 + 1074) + (1 + (e2 - e1 - 1)))%Z by lia. rewrite (Z.pow_add_r 2 (e1 + 1074)), (Z.pow_add_r 2 1) by lia.
  assert (P2 : (1 <= 2 ^ (e2 - e1 - 1))%Z) by (apply (Z.le_succ_l 0), Z.pow_pos_nonneg; lia).
  change (2 ^ (53 - 1))%Z with 4503599627370496%Z in M2. change (2 ^ 53)%Z with 9007199254740992%Z. change (2 ^ 1)%Z with 2%Z.
  revert P1 P2 M2. generalize (2 ^ (e1 + 1074))%Z as p, (2 ^ (e2 - e1 - 1))%Z as q. clear. intros p q P1 P2 M2.
  assert (p <= p * q)%Z by nia. nia.
Qed.
Lemma mant_cmp : forall m1 m2 e, (-1074 <= e)%Z -> Pcompare m1 m2 Eq = Z.compare (Zpos m1 * 2 ^ (e + 1074)) (Zpos m2 * 2 ^ (e + 1074)).
Proof.
  intros m1 m2 e H. assert (P : (0 < 2 ^ (e + 1074))%Z) by (apply Z.pow_pos_nonneg; lia). rewrite <- Zmult_compare_compat_r by lia. reflexivity.
Qed.
Lemma pos_cmp : forall m1 e1 m2 e2, bounded PREC EMAX m1 e1 = true -> bounded PREC EMAX m2 e2 = true ->
  match Z.compare e1 e2 with Lt => Lt | Gt => Gt | Eq => Pcompare m1 m2 Eq end = Z.compare (Zpos m1 * 2 ^ (e1 + 1074)) (Zpos m2 * 2 ^ (e2 + 1074)).
Proof.
  intros m1 e1 m2 e2 B1 B2. destruct (Z.compare_spec e1 e2) as [->|L|L].
  - apply mant_cmp. apply bounded_facts in B2. lia.
  - symmetry. apply Z.compare_lt_iff. apply exp_lt; auto.
  - symmetry. apply Z.compare_gt_iff. apply exp_lt; auto.
Qed.
Lemma Some_inj : forall (A : Type) (a b : A), Some a = Some b -> a = b.
Proof. intros A a b H. injection H. auto. Qed.
Lemma cmp_units : forall x y a b, f64_ok x = true -> f64_ok y = true -> units x = Some a -> units y = Some b -> SFcompare x y = Some (a ?= b)%Z.
Proof.
  assert (POS : forall m e, bounded PREC EMAX m e = true -> (0 < Zpos m * 2 ^ (e + 1074))%Z).
  { intros m e B. apply bounded_facts in B. assert (0 < 2 ^ (e + 1074))%Z by (apply Z.pow_pos_nonneg; lia). lia. }
  intros [s1|s1| |s1 m1 e1] [s2|s2| |s2 m2 e2] a b V1 V2 U1 U2; try discriminate; cbn [units] in U1, U2; apply Some_inj in U1; apply Some_inj in U2; subst a b; cbn [SFcompare f64_ok valid_binary] in *; f_equal.
  - specialize (POS _ _ V2). set (u := (Zpos m2 * 2 ^ (e2 + 1074))%Z) in *. destruct s2; symmetry; [apply Z.compare_gt_iff|apply Z.compare_lt_iff]; lia.
  - specialize (POS _ _ V1). set (u := (Zpos m1 * 2 ^ (e1 + 1074))%Z) in *. destruct s1; symmetry; [apply Z.compare_lt_iff|apply Z.compare_gt_iff]; lia.
  - pose proof (POS _ _ V1) as P1. pose proof (POS _ _ V2) as P2. pose proof (pos_cmp _ _ _ _ V1 V2) as C.
    set (u := (Zpos m1 * 2 ^ (e1 + 1074))%Z) in *. set (v := (Zpos m2 * 2 ^ (e2 + 1074))%Z) in *. destruct s1, s2.
    + assert (E : CompOpp match Z.compare e1 e2 with Lt => Lt | Gt => Gt | Eq => Pcompare m1 m2 Eq end = match Z.compare e1 e2 with Lt => Gt | Gt => Lt | Eq => CompOpp (Pcompare m1 m2 Eq) end) by (destruct (Z.compare e1 e2); reflexivity).
      rewrite <- E, C. rewrite <- Z.compare_antisym. destruct (Z.compare_spec v u), (Z.compare_spec (-1 * u) (-1 * v)); try reflexivity; lia.
    + symmetry. apply Z.compare_lt_iff. lia.
    + symmetry. apply Z.compare_gt_iff. lia.
    + rewrite C. destruct (Z.compare_spec u v), (Z.compare_spec (1 * u) (1 * v)); try reflexivity; lia.
Qed.
Lemma units_or : forall x, x = S754_nan \/ x = S754_infinity true \/ x = S754_infinity false \/ exists a, units x = Some a.
Proof. intros [s|[|]| |s m e]; cbn [units]; eauto. Qed.
(** [partial_cmp] is the order of the numbers. *)
Lemma cmp_spec : forall x y, f64_ok x = true -> f64_ok y = true ->
  match SFcompare x y with
  | None => x = S754_nan \/ y = S754_nan
  | Some Gt => no_more y x /\ ~ no_more x y
  | Some _ => no_more x y
  end.
Proof.
  intros x y V1 V2.
  assert (FIN : forall a b, units x = Some a -> units y = Some b -> match SFcompare x y with None => x = S754_nan \/ y = S754_nan | Some Gt => no_more y x /\ ~ no_more x y | Some _ => no_more x y end).
  { intros a b U1 U2. rewrite (@cmp_units x y a b) by auto.
    assert (X : x <> S754_nan /\ x <> S754_infinity true /\ x <> S754_infinity false) by (destruct x; cbn in U1; repeat split; congruence).
    assert (Y : y <> S754_nan /\ y <> S754_infinity true /\ y <> S754_infinity false) by (destruct y; cbn in U2; repeat split; congruence).
    destruct X as (X1 & X2 & X3). destruct Y as (Y1 & Y2 & Y3). unfold no_more. destruct (Z.compare_spec a b) as [E|L|L].
    - repeat split; auto. right. right. exists a, b. repeat split; auto. lia.
    - repeat split; auto. right. right. exists a, b. repeat split; auto. lia.
    - repeat split; auto.
      + right. right. exists b, a. repeat split; auto. lia.
      + intros (_ & _ & [H|[H|(a' & b' & H1 & H2 & H3)]]); try contradiction. assert (a' = a) by congruence. assert (b' = b) by congruence. lia. }
  unfold no_more. destruct x as [s1|[|]| |s1 m1 e1], y as [s2|[|]| |s2 m2 e2]; try (eapply FIN; reflexivity); cbn [SFcompare]; auto;
    try (split; [discriminate|split; [discriminate|auto]]; fail);
    try (split; [split; [discriminate|split; [discriminate|auto]]|intros (_ & _ & [H|[H|(a' & b' & H1 & H2 & H3)]]); discriminate]).
Qed.
Lemma no_more_trans : forall x y z, no_more x y -> no_more y z -> no_more x z.
Proof.
  intros x y z (X1 & Y1 & H1) (_ & Z1 & H2). split; [auto|split; [auto|]]. destruct H1 as [H1|[H1|(a & b & A & B & L)]]; [auto| |].
  - subst y. destruct H2 as [H2|[H2|(b' & c & B' & _)]]; [discriminate|auto|discriminate].
  - destruct H2 as [H2|[H2|(b' & c & B' & C & L')]]; [subst y; discriminate|auto|]. right. right. exists a, c. repeat split; auto. assert (b' = b) by congruence. lia.
Qed.
Lemma no_more_refl : forall x, x <> S754_nan -> no_more x x.
Proof. intros x N. split; [auto|split; [auto|]]. destruct (units_or x) as [H|[H|[H|(a & H)]]]; auto. - contradiction. - right. right. exists a, a. repeat split; auto. lia. Qed.

(** ** durations *)
Lemma round_div_near : forall a b, (0 < b)%Z -> (2 * Z.abs (round_div a b * b - a) <= b)%Z.
Proof.
  intros a b B. unfold round_div. pose proof (Z.div_mod a b ltac:(lia)) as E. pose proof (Z.mod_pos_bound a b B) as R. set (q := (a / b)%Z) in *. set (r := (a mod b)%Z) in *.
  destruct (Z.compare_spec (2 * r) b); [destruct (Z.even q)| |]; nia.
Qed.
Lemma round_div_mono : forall a a' b, (0 < b)%Z -> (a <= a')%Z -> (round_div a b <= round_div a' b)%Z.
Proof.
  intros a a' b B L. unfold round_div. pose proof (Z.div_mod a b ltac:(lia)) as E. pose proof (Z.mod_pos_bound a b B) as R.
  pose proof (Z.div_mod a' b ltac:(lia)) as E'. pose proof (Z.mod_pos_bound a' b B) as R'. pose proof (Z.div_le_mono a a' b B L) as Q.
  set (q := (a / b)%Z) in *. set (r := (a mod b)%Z) in *. set (q' := (a' / b)%Z) in *. set (r' := (a' mod b)%Z) in *.
  destruct (Z.eq_dec q q') as [EQ|NE].
  - rewrite <- EQ in *. assert (r <= r')%Z by nia. destruct (Z.compare_spec (2 * r) b), (Z.compare_spec (2 * r') b); try lia; destruct (Z.even q); lia.
  - destruct (Z.compare_spec (2 * r) b), (Z.compare_spec (2 * r') b); try lia; destruct (Z.even q), (Z.even q'); lia.
Qed.
Lemma round_div_scale : forall a b k, (0 < b)%Z -> (0 < k)%Z -> round_div (a * k) (b * k) = round_div a b.
Proof.
  intros a b k B K. unfold round_div. rewrite Z.div_mul_cancel_r by lia. rewrite Z.mul_mod_distr_r by lia.
  replace (2 * (a mod b * k))%Z with ((2 * (a mod b)) * k)%Z by ring. rewrite <- Zmult_compare_compat_r by lia. reflexivity.
Qed.
Lemma round_div_exact : forall q b, (0 < b)%Z -> round_div (q * b) b = q.
Proof. intros q b B. unfold round_div. rewrite Z.div_mul, Z.mod_mul by lia. destruct (Z.compare_spec (2 * 0) b); lia. Qed.
Lemma ONE_pos : (0 < ONE)%Z.
Proof. unfold ONE. apply Z.pow_pos_nonneg; lia. Qed.
Global Opaque ONE.
(** In one formula. *)
Lemma from_secs_units : forall x a, f64_ok x = true -> units x = Some a -> (0 <= a)%Z ->
  from_secs_f64 x = if (round_div (a * 1000000000) ONE <? 18446744073709551616 * 1000000000)%Z then Val (Z.to_N (round_div (a * 1000000000) ONE)) else Panic.
Proof.
  intros x a V U P. pose proof ONE_pos as OP. destruct x as [s|s| |s m e]; try discriminate; cbn [units] in U; apply Some_inj in U; subst a.
  - cbn [from_secs_f64]. rewrite Z.mul_0_l. rewrite <- (Z.mul_0_l ONE). rewrite round_div_exact by auto. reflexivity.
  - cbn [f64_ok valid_binary] in V. apply bounded_facts in V. destruct V as (E & _). assert (P2 : (0 < 2 ^ (e + 1074))%Z) by (apply Z.pow_pos_nonneg; lia).
    destruct s; [exfalso; lia|]. cbn [from_secs_f64]. rewrite Z.mul_1_l.
    assert (EQ : (if (0 <=? e)%Z then (Zpos m * 2 ^ e * 1000000000)%Z else round_div (Zpos m * 1000000000) (2 ^ (- e))) = round_div (Zpos m * 2 ^ (e + 1074) * 1000000000) ONE).
    { with_strategy transparent [ONE] unfold ONE in *. destruct (0 <=? e)%Z eqn:S.
      - apply Z.leb_le in S. rewrite Z.pow_add_r by lia. replace (Zpos m * (2 ^ e * 2 ^ 1074) * 1000000000)%Z with ((Zpos m * 2 ^ e * 1000000000) * 2 ^ 1074)%Z by ring.
        rewrite round_div_exact by auto. reflexivity.
      - apply Z.leb_gt in S. assert (X : (2 ^ 1074 = 2 ^ (- e) * 2 ^ (e + 1074))%Z) by (rewrite <- Z.pow_add_r by lia; f_equal; lia).
        rewrite X. replace (Zpos m * 2 ^ (e + 1074) * 1000000000)%Z with ((Zpos m * 1000000000) * 2 ^ (e + 1074))%Z by ring.
        rewrite round_div_scale; auto. apply Z.pow_pos_nonneg; lia. }
    rewrite EQ. reflexivity.
Qed.
Lemma from_secs_ok : forall x d, f64_ok x = true -> from_secs_f64 x = Val d ->
  exists a, units x = Some a /\ (0 <= a)%Z /\ Z.of_N d = round_div (a * 1000000000) ONE.
Proof.
  intros x d V H. assert (X : exists a, units x = Some a /\ (0 <= a)%Z).
  { destruct x as [s|s| |[|] m e]; try discriminate; cbn [units]; eexists; (split; [reflexivity|]); [lia|]. rewrite Z.mul_1_l.
    apply Z.mul_nonneg_nonneg; [lia|]. apply Z.pow_nonneg. lia. }
  destruct X as (a & U & P). exists a. split; [auto|]. split; [auto|]. rewrite (@from_secs_units x a) in H by auto.
  destruct (_ <? _)%Z; [|discriminate]. injection H as <-. rewrite Z2N.id; auto.
  rewrite <- (@round_div_exact 0 ONE) by apply ONE_pos. apply round_div_mono; [apply ONE_pos|lia].
Qed.
Lemma from_secs_sensible : forall x, f64_ok x = true -> sensible x -> exists d, from_secs_f64 x = Val d.
Proof.
  intros x V (a & U & P & Q). rewrite (@from_secs_units x a) by auto. rewrite (proj2 (Z.ltb_lt _ _)); [eauto|].
  apply Z.le_lt_trans with (round_div (((2 ^ 64 - 1) * 1000000000) * ONE) ONE).
  - apply round_div_mono; [apply ONE_pos|]. replace (((2 ^ 64 - 1) * 1000000000) * ONE)%Z with (((2 ^ 64 - 1) * ONE) * 1000000000)%Z by ring. lia.
  - rewrite round_div_exact by apply ONE_pos. reflexivity.
Qed.
Lemma min_by_smaller : forall a b x, f64_ok a = true -> f64_ok b = true -> min_by a b = Val x -> smaller x a b.
Proof.
  intros a b x V W H. pose proof (cmp_spec _ _ V W) as C. unfold min_by in H. unfold smaller. destruct (SFcompare a b) as [[| |]|]; try discriminate; injection H as <-; tauto.
Qed.
Lemma min_by_total : forall a b, f64_ok a = true -> f64_ok b = true -> a <> S754_nan -> b <> S754_nan -> exists x, min_by a b = Val x.
Proof.
  intros a b V W A B. pose proof (cmp_spec _ _ V W) as C. unfold min_by. destruct (SFcompare a b) as [[| |]|]; eauto. tauto.
Qed.
Lemma smaller_ok : forall x a b, f64_ok a = true -> f64_ok b = true -> smaller x a b -> f64_ok x = true.
Proof. intros x a b V W [(-> & _)|(-> & _)]; auto. Qed.

(** ** the n-th wait *)
Definition at_count (max : f64) (f : f64 -> f64) (k : nat) : cgi := mk_cgi f k max.
Lemma ticks_nth : forall n k max f ds, cgi_ticks n (at_count max f k) = Val ds ->
  length ds = n /\ forall i d, nth_error ds i = Some d -> cgi_sleep (at_count max f (k + i)) = Val d.
Proof.
  induction n as [|n IH]; intros k max f ds H; cbn [cgi_ticks] in H.
  - injection H as <-. split; [reflexivity|]. intros [|i] d X; discriminate.
  - unfold cgi_tick in H. destruct (cgi_sleep (at_count max f k)) as [d0| |] eqn:SL; try discriminate. cbn [rmap rbind fst snd] in H.
    change (cgi_ticked (at_count max f k)) with (at_count max f (S k)) in H. destruct (cgi_ticks n (at_count max f (S k))) as [l| |] eqn:T; try discriminate.
    injection H as <-. destruct (IH _ _ _ _ T) as (L & N). split; [cbn; lia|]. intros [|i] d X; cbn in X.
    + injection X as <-. rewrite Nat.add_0_r. auto.
    + rewrite Nat.add_succ_r. apply N; auto.
Qed.
Lemma ticks_total : forall n k max f, (forall i, i < n -> exists d, cgi_sleep (at_count max f (k + i)) = Val d) -> exists ds, cgi_ticks n (at_count max f k) = Val ds.
Proof.
  induction n as [|n IH]; intros k max f H; cbn [cgi_ticks]; [eauto|]. destruct (H 0) as (d & S); [lia|]. rewrite Nat.add_0_r in S. unfold cgi_tick. rewrite S. cbn [rmap rbind fst snd].
  destruct (IH (Datatypes.S k) max f) as (l & T). { intros i L. destruct (H (Datatypes.S i)) as (d' & S'); [lia|]. rewrite Nat.add_succ_r in S'. eauto. }
  change (cgi_ticked (at_count max f k)) with (at_count max f (Datatypes.S k)). rewrite T. cbn. eauto.
Qed.
Lemma sleep_inv : forall max f k d, f64_ok (f (f64_of_nat k)) = true -> f64_ok max = true -> cgi_sleep (at_count max f k) = Val d ->
  exists x a, smaller x (f (f64_of_nat k)) max /\ units x = Some a /\ (0 <= a)%Z /\ Z.of_N d = round_div (a * 1000000000) ONE.
Proof.
  intros max f k d V W H. unfold cgi_sleep, at_count in H. cbn [c_formula c_count c_max] in H. destruct (min_by (f (f64_of_nat k)) max) as [x| |] eqn:M; try discriminate.
  cbn [rbind] in H. apply min_by_smaller in M; auto. destruct (@from_secs_ok x d) as (a & A); [eapply smaller_ok; [| |exact M]; auto|auto|]. exists x, a. auto.
Qed.

(** The n-th of any number of waits is the formula at n or the maximum, whichever
    is smaller, to the nanosecond. *)
Theorem C59_nth : forall n max f ds k d, proper f n -> f64_ok max = true -> cgi_ticks n (cgi_new max f) = Val ds -> nth_error ds k = Some d ->
  length ds = n /\ exists x, smaller x (f (f64_of_nat k)) max /\ nanoseconds x d.
Proof.
  intros n max f ds k d P V T N. apply (ticks_nth n 0) in T. destruct T as (L & S). split; [auto|]. apply S in N as Z0. cbn [Nat.add] in Z0.
  assert (K : k < n) by (rewrite <- L; apply nth_error_Some; congruence). destruct (@sleep_inv max f k d) as (x & a & M & U & _ & E); auto. exists x. split; [auto|]. exists a. split; [auto|].
  rewrite E. apply round_div_near. apply ONE_pos.
Qed.
(** Nothing panics as long as the maximum is a time and the formula is not
    negative... *)
Theorem C59_no_panic : forall n max f, proper f n -> f64_ok max = true -> sensible max ->
  (forall k, k < n -> no_more (S754_zero false) (f (f64_of_nat k))) -> exists ds, cgi_ticks n (cgi_new max f) = Val ds.
Proof.
  intros n max f P V M H. apply (@ticks_total n 0). intros i L. cbn [Nat.add]. pose proof (H i L) as NN. unfold cgi_sleep, at_count. cbn [c_formula c_count c_max].
  assert (MN : max <> S754_nan) by (destruct M as (a & A & _); destruct max; discriminate).
  destruct (@min_by_total (f (f64_of_nat i)) max) as (x & X); [auto|auto|apply NN|auto|]. rewrite X. cbn [rbind]. apply min_by_smaller in X; auto.
  apply from_secs_sensible; [eapply smaller_ok; [| |exact X]; auto|]. destruct X as [(-> & LE)|(-> & LE)]; [|auto].
  destruct M as (m & UM & M0 & M1). destruct (f (f64_of_nat i)) as [s|[|]| |s mm e] eqn:F.
  - exists 0%Z. split; [reflexivity|]. lia.
  - destruct NN as (_ & _ & [X|[X|(a & b & _ & X & _)]]); discriminate.
  - destruct LE as (_ & _ & [X|[X|(a & b & X & _)]]); try discriminate. subst max. discriminate.
  - destruct NN as (X & _). destruct LE as (Y & _). congruence.
  - destruct NN as (_ & _ & [X|[X|(a & b & A & B & C)]]); try discriminate. exists b. split; [auto|]. cbn [units] in A. injection A as <-.
    destruct LE as (_ & _ & [X|[X|(b' & m' & B' & M' & C')]]); [discriminate|subst max; discriminate|]. assert (b' = b) by congruence. assert (m' = m) by congruence. lia.
Qed.
(** ... and only then: a formula that is not a number, or negative, stops the task. *)
Theorem C59_panics : forall n max f k, proper f n -> f64_ok max = true -> k < n ->
  f (f64_of_nat k) = S754_nan \/ negative (f (f64_of_nat k)) -> forall ds, cgi_ticks n (cgi_new max f) <> Val ds.
Proof.
  intros n max f k P V K B ds T. apply (ticks_nth n 0) in T. destruct T as (L & S). destruct (nth_error ds k) as [d|] eqn:N; [|apply nth_error_None in N; lia].
  apply S in N. cbn [Nat.add] in N. destruct (@sleep_inv max f k d) as (x & a & M & U & A & _); auto. destruct B as [B|B].
  - destruct M as [(-> & (X & _))|(-> & (_ & X & _))]; congruence.
  - destruct M as [(-> & X)|(-> & X)].
    + destruct B as [B|(b & B & C)]; [rewrite B in U; discriminate|]. assert (a = b) by congruence. lia.
    + destruct X as (_ & _ & [X|[X|(b & c & Y & Z0 & W)]]).
      * subst max. discriminate.
      * destruct B as [B|(c & B & C)]; [rewrite X in B; discriminate|rewrite X in B; discriminate].
      * destruct B as [B|(c' & B & C)]; [rewrite B in Z0; discriminate|]. assert (c' = c) by congruence. assert (a = b) by congruence. lia.
Qed.
Lemma no_more_smaller : forall a b m x y, no_more a b -> smaller x a m -> smaller y b m -> no_more x y.
Proof.
  intros a b m x y L [(-> & X)|(-> & X)] [(-> & Y)|(-> & Y)]; auto.
  - eapply no_more_trans; eauto.
  - apply no_more_refl. apply X.
Qed.
(** With a growing formula no wait is shorter than an earlier one, none is
    longer than the maximum (to the nanosecond). *)
Theorem C59_growing : forall n max f ds, proper f n -> f64_ok max = true -> growing f n -> cgi_ticks n (cgi_new max f) = Val ds ->
  (forall i j d e, i <= j -> nth_error ds i = Some d -> nth_error ds j = Some e -> (d <= e)%N) /\
  (forall m d, units max = Some m -> In d ds -> (2 * (Z.of_N d * ONE - m * 1000000000) <= ONE)%Z) /\
  (forall i j d e, i <= j -> nth_error ds i = Some d -> nth_error ds j = Some e -> no_more max (f (f64_of_nat i)) -> d = e).
Proof.
  intros n max f ds P V G T. apply (ticks_nth n 0) in T. destruct T as (L & S).
  assert (FG : forall i j, i <= j -> j < n -> f (f64_of_nat i) <> S754_nan -> no_more (f (f64_of_nat i)) (f (f64_of_nat j))).
  { intros i j IJ J NN. induction IJ as [|j IJ IH]; [apply no_more_refl; auto|]. eapply no_more_trans; [apply IH; lia|]. apply G. auto. }
  assert (AT : forall i d, nth_error ds i = Some d -> i < n /\ exists x a, smaller x (f (f64_of_nat i)) max /\ units x = Some a /\ (0 <= a)%Z /\ Z.of_N d = round_div (a * 1000000000) ONE).
  { intros i d N. assert (K : i < n) by (rewrite <- L; apply nth_error_Some; congruence). split; auto. apply S in N. cbn [Nat.add] in N. apply sleep_inv; auto. }
  assert (LE : forall x y a b, no_more x y -> units x = Some a -> units y = Some b -> (round_div (a * 1000000000) ONE <= round_div (b * 1000000000) ONE)%Z).
  { intros x y a b (_ & _ & [X|[X|(a' & b' & A & B & C)]]) U W; [subst x; discriminate|subst y; discriminate|]. apply round_div_mono; [apply ONE_pos|]. assert (a' = a) by congruence. assert (b' = b) by congruence. lia. }
  assert (NNAN : forall x a b, smaller x a b -> a <> S754_nan) by (intros x a b [(_ & X & _)|(_ & _ & X & _)]; auto).
  repeat split.
  - intros i j d e IJ NI NJ. destruct (AT _ _ NI) as (I & x & a & X & U & _ & E). destruct (AT _ _ NJ) as (J & y & b & Y & W & _ & F).
    apply N2Z.inj_le. rewrite E, F. apply (LE x y); auto. eapply no_more_smaller; [|eauto|eauto]. apply FG; auto. eapply NNAN; eauto.
  - intros m d M I. apply In_nth_error in I. destruct I as (i & N). destruct (AT _ _ N) as (I & x & a & X & U & A & E).
    assert (AM : (a <= m)%Z).
    { destruct X as [(-> & _ & _ & [X|[X|(a' & m' & B & C & D)]])|(-> & _)].
      - rewrite X in U. discriminate.
      - subst max. discriminate.
      - assert (a' = a) by congruence. assert (m' = m) by congruence. lia.
      - assert (a = m) by congruence. lia. }
    pose proof (@round_div_near (a * 1000000000) ONE ONE_pos). rewrite E. lia.
  - intros i j d e IJ NI NJ C. destruct (AT _ _ NI) as (I & x & a & X & U & _ & E). destruct (AT _ _ NJ) as (J & y & b & Y & W & _ & F).
    assert (CJ : no_more max (f (f64_of_nat j))) by (eapply no_more_trans; [exact C|]; apply FG; auto; eapply NNAN; eauto).
    assert (SM : forall z fz, no_more max fz -> smaller z fz max -> no_more z max /\ no_more max z).
    { intros z fz Q [(-> & Z1)|(-> & Z1)]; split; auto; apply no_more_refl; apply Q. }
    destruct (SM _ _ C X) as (X1 & X2). destruct (SM _ _ CJ Y) as (Y1 & Y2).
    pose proof (LE x y a b (no_more_trans X1 Y2) U W). pose proof (LE y x b a (no_more_trans Y1 X2) W U). apply N2Z.inj. lia.
Qed.
(** The schedule of the DHT: 3 s, growing, 200 s from the 18th on. *)
Example C59_example : exists ds, cgi_ticks 20 (cgi_new DHT_MAX DHT_GROWTH) = Val ds /\ nth_error ds 0 = Some 3000000000%N /\ nth_error ds 5 = Some 8000000000%N /\
  nth_error ds 19 = Some 200000000000%N /\ proper DHT_GROWTH 20 /\ growing DHT_GROWTH 20 /\ sensible DHT_MAX /\
  (forall k, k < 20 -> no_more (S754_zero false) (DHT_GROWTH (f64_of_nat k))).
Proof.
  eexists. split; [vm_compute; reflexivity|]. repeat (split; [reflexivity|]).
  assert (P : proper DHT_GROWTH 20).
  { intros k K. do 20 (destruct k as [|k]; [vm_compute; reflexivity|]). lia. }
  assert (Q : forall x y, f64_ok x = true -> f64_ok y = true -> (match SFcompare x y with Some Gt | None => false | _ => true end) = true -> no_more x y).
  { intros x y V W C. pose proof (cmp_spec _ _ V W) as S. destruct (SFcompare x y) as [[| |]|]; auto; discriminate. }
  split; [auto|]. split; [|split].
  - intros k K. apply Q; [apply P; lia|apply P; auto|]. do 19 (destruct k as [|k]; [vm_compute; reflexivity|]). lia.
  - exists (200 * ONE)%Z. split; [|pose proof ONE_pos; lia]. with_strategy transparent [ONE] (vm_compute; reflexivity).
  - intros k K. apply Q; [reflexivity|apply P; auto|]. do 20 (destruct k as [|k]; [vm_compute; reflexivity|]). lia.
Qed.

(** ** the refresh of the DHT's table (C85) *)
Lemma turns_app : forall a b c, turns (a ++ b) c = rbind (turns a c) (fun r => rmap (fun q => (fst q, snd r ++ snd q)) (turns b (fst r))).
Proof.
  induction a as [|[race gap] a IH]; intros b c; cbn [app turns rbind].
  - cbn. destruct (turns b c) as [[x l]| |]; reflexivity.
  - destruct (turn race gap c) as [[x r]| |]; cbn [rbind fst snd rmap]; auto. rewrite IH. destruct (turns a x) as [[y l]| |]; cbn [rbind rmap fst snd]; auto.
    destruct (turns b y) as [[z l']| |]; reflexivity.
Qed.
Lemma turns_frame : forall gaps c c' rs, turns gaps c = Val (c', rs) -> c_max c' = c_max c /\ c_formula c' = c_formula c /\ c_count c' = c_count c + count_occ bool_dec rs true.
Proof.
  induction gaps as [|[race gap] gaps IH]; intros c c' rs H; cbn [turns] in H.
  - injection H as <- <-. cbn. auto.
  - destruct (turn race gap c) as [[x r]| |] eqn:T; try discriminate. cbn [rbind rmap fst snd] in H. destruct (turns gaps x) as [[y l]| |] eqn:R; try discriminate.
    injection H as <- <-. destruct (IH _ _ _ R) as (A & B & C). cbn [fst snd].
    assert (X : (x = c /\ r = false) \/ (x = cgi_ticked c /\ r = true)).
    { unfold turn in T. destruct (cgi_sleep c); try discriminate. cbn [rbind] in T. destruct gap as [g|]; [destruct (g ?= a)%N; [destruct race| |]|]; injection T as <- <-; auto. }
    destruct X as [(-> & ->)|(-> & ->)]; cbn in *; repeat split; auto; rewrite C; lia.
Qed.
(** In a quiet time longer than the maximum the table is refreshed (and the
    schedule advances by one for each refresh only). *)
Theorem C85_quiet_partial : forall max f gaps c rs race g c' r m, proper f (S (count_occ bool_dec rs true)) -> f64_ok max = true ->
  turns gaps (cgi_new max f) = Val (c, rs) -> turn race (Some g) c = Val (c', r) ->
  units max = Some m -> (m * 1000000000 < Z.of_N g * ONE - ONE)%Z -> r = true /\ c_count c' = S (count_occ bool_dec rs true).
Proof.
  intros max f gaps c rs race g c' r m V W H T U G. destruct (turns_frame _ _ H) as (A & B & C). destruct c as [f' n max']. cbn in A, B, C. subst.
  unfold turn in T. destruct (cgi_sleep (mk_cgi f (count_occ bool_dec rs true) max)) as [d| |] eqn:S; try discriminate. cbn [rbind] in T.
  destruct (@sleep_inv max f (count_occ bool_dec rs true) d) as (x & a & X & UX & A0 & E); auto.
  assert (AM : (a <= m)%Z).
  { destruct X as [(-> & _ & _ & [X|[X|(a' & m' & B' & C' & D)]])|(-> & _)].
    - rewrite X in UX. discriminate.
    - subst max. discriminate.
    - assert (a' = a) by congruence. assert (m' = m) by congruence. lia.
    - assert (a = m) by congruence. lia. }
  pose proof (@round_div_near (a * 1000000000) ONE ONE_pos) as R. rewrite <- E in R. pose proof ONE_pos as OP.
  assert (DG : (d < g)%N) by (apply N2Z.inj_lt; nia). apply N.compare_gt_iff in DG. rewrite DG in T. injection T as <- <-. auto.
Qed.
(** Exactly when a turn refreshes: when nothing else is ready before the wait is
    over that belongs to the number of refreshes so far. *)
Theorem C85_exact : forall max f gaps c rs k race gap r, proper f (length gaps) -> f64_ok max = true -> turns gaps (cgi_new max f) = Val (c, rs) ->
  nth_error gaps k = Some (race, gap) -> nth_error rs k = Some r ->
  exists x d, smaller x (f (f64_of_nat (count_occ bool_dec (firstn k rs) true))) max /\ nanoseconds x d /\ (r = true <-> match gap with None => True | Some g => (d < g)%N \/ d = g /\ race = true end).
Proof.
  intros max f gaps c rs k race gap r P V T G R.
  assert (SP : gaps = firstn k gaps ++ (race, gap) :: skipn (S k) gaps).
  { clear -G. revert k G. induction gaps as [|x t IH]; intros [|k] G; cbn in *; try discriminate; [injection G as ->; auto|]. f_equal. auto. }
  assert (K : k < length gaps) by (apply nth_error_Some; congruence).
  rewrite SP in T. rewrite turns_app in T. destruct (turns (firstn k gaps) (cgi_new max f)) as [[c1 rs1]| |] eqn:T1; try discriminate. cbn [rbind fst snd] in T.
  assert (L1 : length rs1 = k).
  { assert (LL : forall l a b q, turns l a = Val (b, q) -> length q = length l).
    { clear. induction l as [|[x y] t IH]; intros a b q H; cbn in H; [injection H as _ <-; auto|]. destruct (turn x y a) as [[a1 b1]| |]; try discriminate. cbn [rbind fst snd] in H.
      destruct (turns t a1) as [[a2 q2]| |] eqn:E; try discriminate. cbn in H. injection H as _ <-. cbn. f_equal. eapply IH. eauto. }
    rewrite (LL _ _ _ _ T1). apply firstn_length_le. lia. }
  destruct (turns_frame _ _ T1) as (A & B & C). destruct c1 as [f' n max']. cbn in A, B, C. subst f' max' n.
  cbn [turns] in T. destruct (turn race gap (mk_cgi f (count_occ bool_dec rs1 true) max)) as [[c2 r2]| |] eqn:TT; try discriminate. cbn [rbind fst snd] in T.
  destruct (turns (skipn (S k) gaps) c2) as [[c3 rs3]| |]; try discriminate. cbn [rmap rbind fst snd] in T. injection T as _ <-.
  rewrite nth_error_app2 in R by lia. rewrite L1, Nat.sub_diag in R. cbn in R. injection R as ->.
  replace (firstn k (rs1 ++ r :: rs3)) with rs1 by (rewrite <- L1, firstn_app, Nat.sub_diag, firstn_all, app_nil_r; auto).
  assert (CO : count_occ bool_dec rs1 true <= k) by (rewrite <- L1; apply count_occ_bound).
  unfold turn in TT. destruct (cgi_sleep (mk_cgi f (count_occ bool_dec rs1 true) max)) as [d| |] eqn:S; try discriminate. cbn [rbind] in TT.
  destruct (@sleep_inv max f (count_occ bool_dec rs1 true) d) as (x & a & X & UX & A0 & E); auto. { apply P. lia. }
  exists x, d. split; [auto|]. split. { exists a. split; [auto|]. rewrite E. apply round_div_near. apply ONE_pos. }
  destruct gap as [g|]; [|injection TT as _ <-; tauto]. destruct (N.compare_spec g d) as [Q|Q|Q].
  - destruct race; injection TT as _ <-; split; auto; intros H; try discriminate. destruct H as [H|[_ H]]; [lia|discriminate].
  - injection TT as _ <-. split; [discriminate|]. intros [H|[H _]]; lia.
  - injection TT as _ <-. split; auto.
Qed.
(** Whatever the schedule: turns that each come before the wait is over never
    refresh. *)
Theorem C85_starved : forall c d gaps, cgi_sleep c = Val d -> (forall x, In x gaps -> exists g, snd x = Some g /\ (g < d)%N) ->
  turns gaps c = Val (c, repeat false (length gaps)).
Proof.
  intros c d gaps S. induction gaps as [|[race gap] gaps IH]; intro H; cbn [turns length repeat]; [reflexivity|].
  destruct (H (race, gap)) as (g & E & L); [left; auto|]. cbn in E. subst gap. unfold turn at 1. rewrite S. cbn [rbind]. apply N.compare_lt_iff in L. rewrite L. cbn [rbind fst snd].
  rewrite IH; [reflexivity|]. intros x X. apply H. right. auto.
Qed.
Definition elapsed (gaps : list (bool * option N)) : N := fold_right (fun x s => match snd x with Some g => (g + s)%N | None => s end) 0%N gaps.
(** With one message a second, however long that goes on, the DHT never refreshes
    its table. *)
Theorem C85_refresh_refuted : forall T, exists gaps c rs, (T <= elapsed gaps)%N /\ turns gaps (cgi_new DHT_MAX DHT_GROWTH) = Val (c, rs) /\ ~ In true rs.
Proof.
  intro T. set (one := (false, Some 1000000000%N)). set (gaps := repeat one (N.to_nat T)). exists gaps, (cgi_new DHT_MAX DHT_GROWTH), (repeat false (length gaps)). split; [|split].
  - assert (E : forall n, (N.of_nat n <= elapsed (repeat one n))%N) by (induction n as [|n IH]; cbn [repeat elapsed fold_right snd one]; [lia|]; unfold elapsed in IH; lia).
    specialize (E (N.to_nat T)). rewrite N2Nat.id in E. exact E.
  - apply C85_starved with (d := 3000000000%N); [vm_compute; reflexivity|]. intros x I. apply repeat_spec in I. subst x. exists 1000000000%N. split; [reflexivity|lia].
  - intro I. apply repeat_spec in I. discriminate.
Qed.
(** Between quiet turns: refreshed after 3 s, not in a busy second, then again. *)
Example C85_example : match turns [(false, None); (false, Some 1000000000%N); (true, Some 201000000000%N)] (cgi_new DHT_MAX DHT_GROWTH) with
  | Val (c, rs) => rs = [true; false; true] /\ c_count c = 2
  | _ => False
  end.
Proof. vm_compute. auto. Qed.
Print Assumptions C59_nth.
Print Assumptions C59_no_panic.
Print Assumptions C59_panics.
Print Assumptions C59_growing.
Print Assumptions C85_quiet_partial.
Print Assumptions C85_exact.
Print Assumptions C85_starved.
Print Assumptions C85_refresh_refuted.
