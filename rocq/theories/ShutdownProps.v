(** C57: shutdown. *)
From Coq Require Import List Lia Bool Arith.
From Verif Require Import Base Assoc ShutdownModel ShutdownSpec.
Import ListNotations.
Set Implicit Arguments.

Lemma run_app : forall h s h', sd_run s (h ++ h') = match sd_run s h with Some (Val t) => sd_run t h' | o => o end.
Proof. induction h as [|e h IH]; intros s h'; cbn [app sd_run]; [reflexivity|]. destruct (sd_step s e) as [[t| |]|]; auto. Qed.
Lemma made_app : forall a b, made (a ++ b) = pred (made a) + made b.
Proof.
  assert (P : forall a, 0 < made a) by (induction a as [|[] a IH]; cbn; lia).
  induction a as [|e a IH]; intro b; [reflexivity|]. pose proof (P a). destruct e; cbn [app made]; rewrite IH; lia.
Qed.
Lemma made_pos : forall a, 0 < made a.
Proof. induction a as [|[] a IH]; cbn; lia. Qed.
Lemma made_snoc : forall a e, made (a ++ [e]) = match e with Clone _ => S (made a) | _ => made a end.
Proof. intros a e. rewrite made_app. pose proof (made_pos a). destruct e; cbn; lia. Qed.
Lemma living_snoc : forall h e r, living (h ++ [e]) r <->
  match e with Clone _ => living h r \/ r = made h /\ ~ In (Drop r) h | Drop x => living h r /\ r <> x | _ => living h r end.
Proof.
  intros h e r. unfold living. rewrite made_snoc, in_app_iff. cbn [In].
  destruct e as [| |x|x|x| |]; split; intro H.
  all: try (destruct H as (H1 & H2); split; [exact H1|]; first [intro I; apply H2; auto; fail|intros [I|[E|[]]]; [exact (H2 I)|discriminate E]]; fail).
  - destruct H as (H1 & H2). destruct (Nat.eq_dec r (made h)) as [->|N]; [right|left]; split; auto; lia.
  - destruct H as [(H1 & H2)|(-> & H2)]; split; try lia; intros [I|[E|[]]]; auto; discriminate.
  - destruct H as (H1 & H2). split; [split; auto|]. intros ->. apply H2. auto.
  - destruct H as ((H1 & H2) & H3). split; auto. intros [I|[E|[]]]; auto. injection E as ->. auto.
Qed.
Lemma signalled_snoc : forall h e r, signalled (h ++ [e]) r <->
  (e = Send /\ living h r) \/ (signalled h r /\ e <> Recv r).
Proof.
  intros h e r. unfold signalled. split.
  - intros (a & b & E & L & N). destruct b as [|x b] using rev_ind.
    + apply app_inj_tail in E. destruct E as (-> & ->). auto.
    + clear IHb. rewrite app_comm_cons, app_assoc in E. apply app_inj_tail in E. destruct E as (-> & ->). right. rewrite in_app_iff in N. split.
      * exists a, b. repeat split; try apply L. intro I. apply N. auto.
      * intros ->. apply N. cbn. auto.
  - intros [(-> & L)|((a & b & -> & L & N) & M)].
    + exists h, []. auto.
    + exists a, (b ++ [e]). rewrite <- app_assoc. repeat split; try apply L. rewrite in_app_iff. cbn. intros [I|[I|[]]]; auto.
Qed.

(** The state after a history. *)
Record inv (h : list sd_event) (s : sd) : Prop := mk_inv {
  i_names : sd_names s = made h;
  i_nodup : NoDup (map fst (sd_rx s));
  i_living : forall r, In r (map fst (sd_rx s)) <-> living h r;
  i_markers : sd_markers s = length (sd_rx s);
  i_senders : b_senders (sd_b s) = length (sd_rx s) + (if sd_sender s then 1 else 0);
  i_sender : sd_sender s = true <-> ~ In Send h /\ ~ In DropSender h;
  i_tail : b_tail (sd_b s) <= 1;
  i_unsent : ~ In Send h -> b_tail (sd_b s) = 0 /\ sd_waiter s = false;
  i_ended : In Waited h \/ In DropWaiter h -> In Send h;
  i_waiter : sd_waiter s = true <-> waiting h;
  i_drops : forall r, In (Drop r) h -> r < made h;
  i_next : forall r n, rget r (sd_rx s) = Some n -> n <= b_tail (sd_b s) /\ (n < b_tail (sd_b s) <-> signalled h r)
}.
Lemma nat_spec : forall a b, Nat.eqb a b = true <-> a = b.
Proof. exact Nat.eqb_eq. Qed.
Lemma rget_key : forall r rx n, rget r rx = Some n -> In r (map fst rx).
Proof. intros r rx n H. exact (mget_some_key Nat.eqb nat_spec _ _ H). Qed.
Lemma del_len : forall r (rx : list (nat * nat)), In r (map fst rx) -> length rx = S (length (rdel r rx)).
Proof.
  intros r rx. unfold rdel. induction rx as [|[k v] rx IH]; intro I; [destruct I|]. cbn [mdel]. destruct (Nat.eqb r k) eqn:E; [reflexivity|].
  cbn [length]. rewrite <- IH; auto. destruct I as [I|I]; auto. cbn in I. subst. rewrite Nat.eqb_refl in E. discriminate.
Qed.
Lemma set_new_len : forall r v (rx : list (nat * nat)), ~ In r (map fst rx) -> length (rset r v rx) = S (length rx) /\ map fst (rset r v rx) = map fst rx ++ [r].
Proof.
  intros r v rx. unfold rset. induction rx as [|[k x] rx IH]; intro I; [split; reflexivity|]. cbn [mset]. destruct (Nat.eqb r k) eqn:E.
  - apply Nat.eqb_eq in E. subst. destruct I. left. reflexivity.
  - destruct IH as (I1 & I2); [intro J; apply I; right; auto|]. cbn [length map]. rewrite I1, I2. split; reflexivity.
Qed.
Lemma set_old_len : forall r v (rx : list (nat * nat)), In r (map fst rx) -> length (rset r v rx) = length rx /\ map fst (rset r v rx) = map fst rx.
Proof.
  intros r v rx. unfold rset. induction rx as [|[k x] rx IH]; intro I; [destruct I|]. cbn [mset]. destruct (Nat.eqb r k) eqn:E.
  - split; reflexivity.
  - destruct IH as (I1 & I2); [destruct I as [I|I]; auto; cbn in I; subst; rewrite Nat.eqb_refl in E; discriminate|]. cbn [length map]. rewrite I1, I2. split; reflexivity.
Qed.
Lemma del_keys : forall r (rx : list (nat * nat)) x, NoDup (map fst rx) -> (In x (map fst (rdel r rx)) <-> In x (map fst rx) /\ x <> r).
Proof.
  intros r rx x. unfold rdel. induction rx as [|[k v] rx IH]; intro N; [cbn; tauto|]. cbn [map fst] in N. inversion N as [|? ? NI N']; subst. cbn [mdel]. destruct (Nat.eqb r k) eqn:E.
  - apply Nat.eqb_eq in E. subst. cbn. split; [intro I; split; auto; intros ->; auto|intros ([->|I] & M); [congruence|auto]].
  - apply Nat.eqb_neq in E. cbn [map fst In]. rewrite IH by auto. split; [intros [->|(I & M)]; auto|intros ([->|I] & M); auto].
Qed.
Lemma del_nodup : forall r (rx : list (nat * nat)), NoDup (map fst rx) -> NoDup (map fst (rdel r rx)).
Proof.
  intros r rx N. unfold rdel. induction rx as [|[k v] rx IH]; [constructor|]. cbn [map fst] in N. inversion N as [|? ? NI N']; subst. cbn [mdel]. destruct (Nat.eqb r k) eqn:E; auto.
  cbn [map fst]. constructor; auto. intro I. apply (@del_keys r rx k N') in I. tauto.
Qed.
Lemma get_del : forall r (rx : list (nat * nat)) x, x <> r -> rget x (rdel r rx) = rget x rx.
Proof.
  intros r rx x N. unfold rdel, rget. induction rx as [|[k v] rx IH]; [reflexivity|]. cbn [mdel mget]. destruct (Nat.eqb r k) eqn:E.
  - apply Nat.eqb_eq in E. subst. rewrite (proj2 (Nat.eqb_neq _ _) N). reflexivity.
  - cbn [mget]. rewrite IH. reflexivity.
Qed.
Lemma in_snoc : forall A (x : A) l y, In x (l ++ [y]) <-> In x l \/ y = x.
Proof. intros. rewrite in_app_iff. cbn. tauto. Qed.
Lemma NoDup_snoc : forall A (x : A) l, NoDup l -> ~ In x l -> NoDup (l ++ [x]).
Proof. intros A x l N I. apply NoDup_rev in N. rewrite <- (rev_involutive l), <- (rev_involutive [x]), <- rev_app_distr. apply NoDup_rev. cbn. constructor; auto. rewrite <- in_rev. auto. Qed.
Lemma inv_init : inv [] sd_channel.
Proof.
  constructor; cbn; auto; try tauto.
  - repeat constructor. intros [].
  - intro r. unfold living. cbn. split; [intros [<-|[]]; split; [lia|auto]|intros (H & _); lia].
  - split; [discriminate|intros ([] & _)].
  - intros r n. destruct (Nat.eqb r 0); [|discriminate]. intro H. injection H as <-. split; [lia|]. split; [lia|]. intros (a & b & E & _). destruct a; discriminate.
Qed.
Lemma inv_step : forall h s e s', inv h s -> sd_step s e = Some (Val s') -> inv (h ++ [e]) s'.
Proof.
  intros h [b m snd w rx n] e s' [A1 A2 A3 A4 A5 A6 A7 A8 AE A9 A10 A11] H. cbn [sd_b sd_markers sd_sender sd_waiter sd_rx sd_names] in *.
  assert (OTHER : forall x, e <> x -> (In x (h ++ [e]) <-> In x h)) by (intros x N; rewrite in_snoc; split; [intros [I|I]; congruence|auto]).
  assert (DRP : (forall r, e <> Drop r) -> forall r, In (Drop r) (h ++ [e]) -> r < made (h ++ [e])).
  { intros N r I. rewrite OTHER in I by auto. specialize (A10 _ I). rewrite made_snoc. destruct e; lia. }
  destruct e as [| |r|r|r| |]; cbn [sd_step] in H.
  - (* Send *) destruct snd; [|discriminate]. injection H as <-. destruct (proj1 A6 eq_refl) as (N1 & N2). destruct (A8 N1) as (T0 & W0).
    constructor; cbn [sd_b sd_markers sd_sender sd_waiter sd_rx sd_names].
    + rewrite made_snoc. auto.
    + auto.
    + intro r. rewrite living_snoc. auto.
    + auto.
    + unfold bcast_send. destruct rx; cbn [length bcast_sub b_senders] in *; lia.
    + split; [discriminate|]. intros (X & _). destruct X. apply in_snoc. auto.
    + unfold bcast_send. destruct rx; cbn; lia.
    + intro X. destruct X. apply in_snoc. auto.
    + intros _. apply in_snoc. auto.
    + split; auto. intros _. unfold waiting. rewrite (OTHER Waited), (OTHER DropWaiter) by discriminate. rewrite in_snoc. repeat split; auto.
    + apply DRP. intro; discriminate.
    + intros r k G. destruct (length rx) eqn:L; [destruct rx; [discriminate G|discriminate L]|]. cbn [bcast_send bcast_sub b_tail]. rewrite T0. destruct (A11 _ _ G) as (K1 & _). split; [lia|].
      rewrite signalled_snoc. split; [intros _; left; split; auto; apply A3; eapply rget_key; eauto|lia].
  - (* DropSender *) destruct snd; [|discriminate]. injection H as <-. destruct (proj1 A6 eq_refl) as (N1 & N2). destruct (A8 N1) as (T0 & W0).
    constructor; cbn [sd_b sd_markers sd_sender sd_waiter sd_rx sd_names bcast_sub b_tail b_senders]; auto.
    + rewrite made_snoc. auto.
    + intro r. rewrite living_snoc. auto.
    + lia.
    + split; [discriminate|]. intros (_ & X). destruct X. apply in_snoc. auto.
    + rewrite !OTHER by discriminate. exact AE.
    + unfold waiting. rewrite !OTHER by discriminate. exact A9.
    + apply DRP. intro; discriminate.
    + intros r k G. rewrite signalled_snoc. destruct (A11 _ _ G) as (K1 & K2). split; auto. rewrite K2. split; [intro X; right; split; [auto|discriminate]|intros [(X & _)|(X & _)]; [discriminate|auto]].
  - (* Clone *) destruct (rget r rx) as [k|] eqn:G; [|discriminate]. injection H as <-.
    assert (NEW : ~ living h n) by (intros (X & _); lia). assert (NK : ~ In n (map fst rx)) by (rewrite A3; auto).
    destruct (@set_new_len n (subscribe b) rx NK) as (L1 & L2).
    constructor; cbn [sd_b sd_markers sd_sender sd_waiter sd_rx sd_names bcast_add b_tail b_senders].
    + rewrite made_snoc. lia.
    + rewrite L2. apply NoDup_snoc; auto.
    + intro x. rewrite L2, in_snoc, A3, living_snoc. split; [intros [X|<-]; [auto|right; split; [auto|]; intro I; apply A10 in I; lia]|intros [X|(-> & _)]; auto].
    + lia.
    + lia.
    + rewrite !OTHER by discriminate. exact A6.
    + exact A7.
    + rewrite !OTHER by discriminate. exact A8.
    + rewrite !OTHER by discriminate. exact AE.
    + unfold waiting. rewrite !OTHER by discriminate. exact A9.
    + apply DRP. intro; discriminate.
    + intros x k' G'. destruct (Nat.eq_dec x n) as [->|N].
      * unfold rget, rset in G'. rewrite (mget_mset_same Nat.eqb nat_spec) in G'. injection G' as <-. unfold subscribe. split; [lia|]. split; [lia|].
        rewrite signalled_snoc. intros [(X & _)|((u & v & -> & (X & _) & _) & _)]; [discriminate|]. exfalso. rewrite made_app in A1. pose proof (made_pos (Send :: v)). lia.
      * unfold rget, rset in G'. rewrite (mget_mset_other Nat.eqb nat_spec) in G' by auto. rewrite signalled_snoc. destruct (A11 _ _ G') as (K1 & K2). split; auto. rewrite K2.
        split; [intro X; right; split; [auto|discriminate]|intros [(X & _)|(X & _)]; [discriminate|auto]].
  - (* Drop *) destruct (rget r rx) as [k|] eqn:G; [|discriminate]. injection H as <-. pose proof (rget_key _ _ G) as RK. pose proof (del_len _ _ RK) as DL.
    constructor; cbn [sd_b sd_markers sd_sender sd_waiter sd_rx sd_names bcast_sub b_tail b_senders].
    + rewrite made_snoc. lia.
    + apply del_nodup. auto.
    + intro x. rewrite del_keys by auto. rewrite A3, living_snoc. tauto.
    + lia.
    + lia.
    + rewrite !OTHER by discriminate. exact A6.
    + exact A7.
    + rewrite !OTHER by discriminate. exact A8.
    + rewrite !OTHER by discriminate. exact AE.
    + unfold waiting. rewrite !OTHER by discriminate. exact A9.
    + intros x I. rewrite made_snoc. apply in_snoc in I. destruct I as [I|I]; [auto|]. injection I as <-. apply A3 in RK. apply RK.
    + intros x k' G'. assert (N : x <> r) by (intros ->; apply rget_key in G'; apply del_keys in G'; tauto). rewrite get_del in G' by auto.
      rewrite signalled_snoc. destruct (A11 _ _ G') as (K1 & K2). split; auto. rewrite K2.
      split; [intro X; right; split; [auto|discriminate]|intros [(X & _)|(X & _)]; [discriminate|auto]].
  - (* Recv *) destruct (rget r rx) as [k|] eqn:G; [|discriminate]. destruct (bcast_recv b k) as [[k'| |]|] eqn:B; try discriminate. injection H as <-.
    pose proof (rget_key _ _ G) as RK. destruct (set_old_len r k' rx RK) as (L1 & L2). destruct (A11 _ _ G) as (K1 & K2).
    unfold bcast_recv in B. destruct (k + BROADCAST_CAP <? b_tail b) eqn:B1; [discriminate|]. destruct (k <? b_tail b) eqn:B2; [|destruct (b_senders b =? 0); discriminate].
    injection B as <-. apply Nat.ltb_lt in B2.
    constructor; cbn [sd_b sd_markers sd_sender sd_waiter sd_rx sd_names bcast_sub b_tail b_senders].
    + rewrite made_snoc. lia.
    + rewrite L2. auto.
    + intro x. rewrite L2, A3, living_snoc. tauto.
    + lia.
    + lia.
    + rewrite !OTHER by discriminate. exact A6.
    + exact A7.
    + rewrite !OTHER by discriminate. exact A8.
    + rewrite !OTHER by discriminate. exact AE.
    + unfold waiting. rewrite !OTHER by discriminate. exact A9.
    + apply DRP. intro; discriminate.
    + intros x y G'. destruct (Nat.eq_dec x r) as [->|N].
      * unfold rget, rset in G'. rewrite (mget_mset_same Nat.eqb nat_spec) in G'. injection G' as <-. split; [lia|]. split; [lia|]. rewrite signalled_snoc. intros [(X & _)|(_ & X)]; [discriminate|congruence].
      * unfold rget, rset in G'. rewrite (mget_mset_other Nat.eqb nat_spec) in G' by auto. rewrite signalled_snoc. destruct (A11 _ _ G') as (K3 & K4). split; auto. rewrite K4.
        split; [intro X; right; split; [auto|congruence]|intros [(X & _)|(X & _)]; [discriminate|auto]].
  - (* Waited *) destruct w; [|discriminate]. destruct (m =? 0) eqn:M0; [|discriminate]. injection H as <-. destruct (proj1 A9 eq_refl) as (W1 & W2 & W3).
    constructor; cbn [sd_b sd_markers sd_sender sd_waiter sd_rx sd_names]; auto.
    + rewrite made_snoc. auto.
    + intro r. rewrite living_snoc. auto.
    + rewrite !OTHER by discriminate. auto.
    + rewrite OTHER by discriminate. intro X. contradiction.
    + intros _. apply in_snoc. auto.
    + split; [discriminate|]. intros (_ & X & _). destruct X. apply in_snoc. auto.
    + apply DRP. intro; discriminate.
    + intros r k G. rewrite signalled_snoc. destruct (A11 _ _ G) as (K1 & K2). split; auto. rewrite K2. split; [intro X; right; split; [auto|discriminate]|intros [(X & _)|(X & _)]; [discriminate|auto]].
  - (* DropWaiter *) destruct w; [|discriminate]. injection H as <-. destruct (proj1 A9 eq_refl) as (W1 & W2 & W3).
    constructor; cbn [sd_b sd_markers sd_sender sd_waiter sd_rx sd_names]; auto.
    + rewrite made_snoc. auto.
    + intro r. rewrite living_snoc. auto.
    + rewrite !OTHER by discriminate. auto.
    + rewrite OTHER by discriminate. intro X. contradiction.
    + intros _. apply in_snoc. auto.
    + split; [discriminate|]. intros (_ & _ & X). destruct X. apply in_snoc. auto.
    + apply DRP. intro; discriminate.
    + intros r k G. rewrite signalled_snoc. destruct (A11 _ _ G) as (K1 & K2). split; auto. rewrite K2. split; [intro X; right; split; [auto|discriminate]|intros [(X & _)|(X & _)]; [discriminate|auto]].
Qed.
Lemma inv_run : forall h s, history h s -> inv h s.
Proof.
  unfold history. induction h as [|e h IH] using rev_ind; intros s H.
  - injection H as <-. exact inv_init.
  - rewrite run_app in H. destruct (sd_run sd_channel h) as [[t| |]|]; try discriminate. cbn [sd_run] in H. destruct (sd_step t e) as [[u| |]|] eqn:S; try discriminate.
    injection H as <-. eapply inv_step; eauto.
Qed.

(** C57: a receiver's wait for the signal ends exactly if the signal was given
    while the receiver existed and it has not seen it before. *)
Theorem C57_received : forall h s r, history h s -> living h r ->
  ((exists s', sd_step s (Recv r) = Some (Val s')) <-> signalled h r).
Proof.
  intros h s r H L. pose proof (inv_run H) as [A1 A2 A3 A4 A5 A6 A7 A8 AE A9 A10 A11]. destruct s as [b m snd w rx n]. cbn [sd_b sd_markers sd_sender sd_waiter sd_rx sd_names sd_step] in *.
  apply A3 in L. destruct (key_mget Nat.eqb nat_spec _ _ L) as (k & G). change (mget Nat.eqb r rx) with (rget r rx) in G. rewrite G. destruct (A11 _ _ G) as (K1 & K2). rewrite <- K2.
  unfold bcast_recv. rewrite (proj2 (Nat.ltb_ge _ _)) by (unfold BROADCAST_CAP; lia). destruct (k <? b_tail b) eqn:B.
  - apply Nat.ltb_lt in B. split; [auto|]. intros _. eauto.
  - apply Nat.ltb_ge in B. destruct (b_senders b =? 0); (split; [intros (s' & X); discriminate|lia]).
Qed.
(** It never fails: no receiver lags behind, and the channel is never closed
    under it. *)
Theorem C57_no_panic : forall h, sd_run sd_channel h <> Some Panic /\ sd_run sd_channel h <> Some Fail.
Proof.
  induction h as [|e h IH] using rev_ind; [split; discriminate|]. rewrite run_app. destruct (sd_run sd_channel h) as [[s| |]|] eqn:R; try (destruct IH; congruence); try (split; discriminate).
  pose proof (inv_run R) as [A1 A2 A3 A4 A5 A6 A7 A8 AE A9 A10 A11]. destruct s as [b m snd w rx n]. cbn [sd_b sd_markers sd_sender sd_waiter sd_rx sd_names sd_run sd_step] in *.
  destruct e as [| |r|r|r| |]; try (destruct snd; split; discriminate); try (destruct (rget r rx); split; discriminate); try (destruct w; [destruct (m =? 0)|]; split; discriminate).
  destruct (rget r rx) as [k|] eqn:G; [|split; discriminate]. destruct (A11 _ _ G) as (K1 & _). pose proof (rget_key _ _ G) as RK.
  unfold bcast_recv. rewrite (proj2 (Nat.ltb_ge _ _)) by (unfold BROADCAST_CAP; lia). destruct (k <? b_tail b); [split; discriminate|].
  assert (length rx <> 0) by (destruct rx; [destruct RK|cbn; lia]). rewrite (proj2 (Nat.eqb_neq _ _)) by lia. split; discriminate.
Qed.
(** So every receiver sees it at most once, and only after it was given. *)
Theorem C57_once : forall a b r s, history (a ++ Recv r :: b) s -> In Send a /\ ~ In (Recv r) a /\ ~ In (Recv r) b.
Proof.
  assert (ST : forall a b s, history (a ++ b) s -> exists t, history a t /\ sd_run t b = Some (Val s)).
  { unfold history. intros a b s H. rewrite run_app in H. destruct (sd_run sd_channel a) as [[t| |]|]; try discriminate. eauto. }
  assert (AT : forall a b r s, history (a ++ Recv r :: b) s -> signalled a r).
  { intros a b r s H. destruct (ST _ _ _ H) as (t & Ha & Hb). cbn [sd_run] in Hb. destruct (sd_step t (Recv r)) as [[u| |]|] eqn:S; try discriminate.
    assert (L : living a r).
    { apply (inv_run Ha). destruct t as [bb m snd w rx n]. cbn [sd_step] in S. destruct (rget r rx) eqn:G; [|discriminate]. eapply rget_key; eauto. }
    eapply C57_received; eauto. }
  assert (SEND1 : forall x y s, history (x ++ Send :: y) s -> ~ In Send x).
  { intros x y s H. destruct (ST _ _ _ H) as (t & Ha & Hb). cbn [sd_run] in Hb. destruct (sd_step t Send) as [[u| |]|] eqn:S; try discriminate.
    apply (inv_run Ha). destruct t as [bb m snd w rx n]. cbn [sd_step sd_sender] in *. destruct snd; auto. discriminate. }
  assert (PRE : forall a b r s, history (a ++ Recv r :: b) s -> ~ In (Recv r) a).
  { intros a b r s H I. destruct (AT _ _ _ _ H) as (x & y & -> & L & N). apply in_app_or in I. destruct I as [I|[I|I]]; [|discriminate|auto].
    destruct (in_split _ _ I) as (u & v & ->). rewrite <- !app_assoc in H. cbn [app] in H. destruct (AT _ _ _ _ H) as (x' & y' & -> & _).
    rewrite <- app_assoc in H. cbn [app] in H.
    change (x' ++ Send :: y' ++ Recv r :: v ++ (Send :: y) ++ Recv r :: b) with (x' ++ Send :: (y' ++ Recv r :: v ++ Send :: y ++ Recv r :: b)) in H.
    assert (E : x' ++ Send :: y' ++ Recv r :: v ++ Send :: y ++ Recv r :: b = (x' ++ Send :: y' ++ Recv r :: v) ++ Send :: (y ++ Recv r :: b)) by (rewrite <- app_assoc; cbn [app]; rewrite <- app_assoc; reflexivity).
    rewrite E in H. apply SEND1 in H. apply H. apply in_or_app. right. left. reflexivity. }
  intros a b r s H. destruct (AT _ _ _ _ H) as (x & y & E & _). split; [rewrite E; apply in_or_app; right; left; reflexivity|]. split; [eapply PRE; eauto|].
  intro I. destruct (in_split _ _ I) as (u & v & ->). rewrite app_comm_cons, app_assoc in H. apply PRE in H. apply H. apply in_or_app. right. left. reflexivity.
Qed.
(** Waiting ends exactly if nobody is left. *)
Theorem C57_waits : forall h s, history h s -> ((exists s', sd_step s Waited = Some (Val s')) <-> waiting h /\ nobody_left h).
Proof.
  intros h s H. pose proof (inv_run H) as [A1 A2 A3 A4 A5 A6 A7 A8 AE A9 A10 A11]. destruct s as [b m snd w rx n]. cbn [sd_b sd_markers sd_sender sd_waiter sd_rx sd_names sd_step] in *.
  assert (NL : m = 0 <-> nobody_left h).
  { unfold nobody_left. split.
    - intros M r L. apply A3 in L. destruct rx; [destruct L|cbn in A4; lia].
    - intro X. destruct rx as [|[r k] rx]; [auto|]. destruct (X r). apply A3. left. reflexivity. }
  rewrite <- A9, <- NL. destruct w; [destruct (m =? 0) eqn:M|]; cbn [andb].
  - apply Nat.eqb_eq in M. split; [auto|eauto].
  - apply Nat.eqb_neq in M. split; [intros (s' & X); discriminate|intros (_ & X); contradiction].
  - split; [intros (s' & X); discriminate|intros (X & _); discriminate].
Qed.
(** A receiver can always be copied and dropped; the signal can be given until it
    was given or its sender dropped. *)
Theorem C57_always : forall h s, history h s ->
  (forall r, living h r -> (exists s', sd_step s (Clone r) = Some (Val s')) /\ exists s', sd_step s (Drop r) = Some (Val s')) /\
  (~ In Send h -> ~ In DropSender h -> exists s', sd_step s Send = Some (Val s')).
Proof.
  intros h s H. pose proof (inv_run H) as [A1 A2 A3 A4 A5 A6 A7 A8 AE A9 A10 A11]. destruct s as [b m snd w rx n]. cbn [sd_b sd_markers sd_sender sd_waiter sd_rx sd_names sd_step] in *. split.
  - intros r L. apply A3 in L. destruct (key_mget Nat.eqb nat_spec _ _ L) as (k & G). change (mget Nat.eqb r rx) with (rget r rx) in G. rewrite G. eauto.
  - intros N1 N2. rewrite (proj2 A6) by auto. eauto.
Qed.
(** Main hands copies to two tasks, drops its own and gives the signal; both see
    it and end; only then is the wait over. *)
Example C57_example : exists s1 s2, history [Clone 0; Clone 0; Drop 0; Send; Recv 2; Drop 2] s1 /\ signalled [Clone 0; Clone 0; Drop 0; Send; Recv 2; Drop 2] 1 /\
  living [Clone 0; Clone 0; Drop 0; Send; Recv 2; Drop 2] 1 /\ sd_step s1 Waited = None /\
  history [Clone 0; Clone 0; Drop 0; Send; Recv 2; Drop 2; Recv 1; Drop 1; Waited] s2.
Proof.
  eexists _, _. split; [vm_compute; reflexivity|]. split; [|split; [|split; [vm_compute; reflexivity|vm_compute; reflexivity]]].
  - exists [Clone 0; Clone 0; Drop 0], [Recv 2; Drop 2]. split; [reflexivity|]. split; [split; [cbn; lia|]|]; cbn; intuition discriminate.
  - split; [cbn; lia|]. cbn. intuition discriminate.
Qed.
(** A copy made after the signal never sees it, and the wait lasts as long as the
    copy exists. *)
Lemma sent_before : forall x y s, history (x ++ Send :: y) s -> ~ In Send x.
Proof.
  unfold history. intros x y s H. rewrite run_app in H. destruct (sd_run sd_channel x) as [[t| |]|] eqn:R; try discriminate. pose proof (inv_run R) as I. cbn [sd_run] in H.
  destruct (sd_step t Send) as [[u| |]|] eqn:S; try discriminate. apply I. destruct t as [bb m snd w rx n]. cbn [sd_step sd_sender] in *. destruct snd; [auto|discriminate].
Qed.
Lemma first_split : forall A (z : A) a b x y, a ++ z :: b = x ++ z :: y -> ~ In z a -> ~ In z x -> a = x.
Proof.
  intros A z. induction a as [|e a IH]; intros b [|f x] y E N1 N2; auto.
  - injection E as <- _. destruct N2. left. auto.
  - injection E as -> _. destruct N1. left. auto.
  - injection E as <- E. f_equal. eapply IH; eauto; intro I; [apply N1|apply N2]; right; auto.
Qed.
Theorem C57_late_copy : forall a b r s, history (a ++ Send :: b) s -> made a <= r -> living (a ++ Send :: b) r ->
  sd_step s (Recv r) = None /\ sd_step s Waited = None.
Proof.
  intros a b r s H M L. assert (S1 : ~ signalled (a ++ Send :: b) r).
  { intros (x & y & E & (X & _) & _). pose proof (sent_before _ _ H) as N1. rewrite E in H. pose proof (sent_before _ _ H) as N2. rewrite (@first_split _ _ _ _ _ _ E N1 N2) in M. lia. }
  destruct (sd_step s (Recv r)) as [[t| |]|] eqn:S.
  - destruct S1. eapply C57_received; eauto.
  - exfalso. apply (proj2 (C57_no_panic ((a ++ Send :: b) ++ [Recv r]))). unfold history in H. rewrite run_app, H. cbn [sd_run]. rewrite S. reflexivity.
  - exfalso. apply (proj1 (C57_no_panic ((a ++ Send :: b) ++ [Recv r]))). unfold history in H. rewrite run_app, H. cbn [sd_run]. rewrite S. reflexivity.
  - split; [reflexivity|]. destruct (sd_step s Waited) as [o|] eqn:S2; [|reflexivity]. exfalso.
    assert (X : exists s', sd_step s Waited = Some (Val s')).
    { destruct s as [bb m snd w rx n]. cbn [sd_step] in *. destruct (w && (m =? 0)); [eauto|discriminate]. }
    apply (C57_waits H) in X. destruct X as (_ & X). exact (X r L).
Qed.
Example C57_late_copy_example : exists s, history ([Clone 0] ++ Send :: [Clone 1; Recv 0; Drop 0; Recv 1; Drop 1]) s /\ living ([Clone 0] ++ Send :: [Clone 1; Recv 0; Drop 0; Recv 1; Drop 1]) 2.
Proof. eexists. split; [vm_compute; reflexivity|]. split; [cbn; lia|]. cbn. intuition discriminate. Qed.
Print Assumptions C57_received.
Print Assumptions C57_no_panic.
Print Assumptions C57_once.
Print Assumptions C57_waits.
Print Assumptions C57_always.
Print Assumptions C57_late_copy.
