(** Proofs about PeersModel *)
From Coq Require Import List NArith ZArith Lia Bool Arith Permutation.
From Verif Require Import Base Assoc IdModel WireModel PeersModel PeersSpec.
Import ListNotations.
Set Implicit Arguments.

Lemma addr_eqb_spec : forall a b, addr_eqb a b = true <-> a = b.
Proof.
  intros [a b c d e] [a' b' c' d' e']. unfold addr_eqb, addr_octets. cbn [ip0 ip1 ip2 ip3 port].
  rewrite andb_true_iff, N.eqb_eq, bytes_eqb_eq. split.
  - intros [H1 H2]. injection H1 as -> -> -> ->. congruence.
  - intro H. injection H as -> -> -> -> ->. auto.
Qed.
Lemma addr_dec : forall a b : addr, {a = b} + {a <> b}.
Proof.
  intros a b. destruct (addr_eqb a b) eqn:E.
  - left. apply addr_eqb_spec. auto.
  - right. intro H. apply addr_eqb_spec in H. congruence.
Qed.
Lemma status_eqb_spec : forall a b, status_eqb a b = true <-> a = b.
Proof. intros [] []; cbn; split; congruence. Qed.

Lemma status_get : forall m p st, NoDup (map fst m) -> (status_of m p st <-> qget p m = Some st).
Proof.
  intros m p st N. split.
  - apply (in_mget _ addr_eqb_spec). exact N.
  - apply (mget_in _ addr_eqb_spec).
Qed.

(** One pass. *)
Lemma pass_props : forall cur m n m' out, NoDup (map fst m) -> activate_pass cur n m = (m', out) ->
  map fst m' = map fst m /\ NoDup out /\ length out <= n /\
  (forall p, In p out -> status_of m p cur) /\
  (length out = n \/ forall p, status_of m p cur -> In p out) /\
  (forall p, In p out -> status_of m' p Active) /\
  (forall p st, ~ In p out -> (status_of m' p st <-> status_of m p st)).
Proof.
  intros cur m.
  assert (NIL : forall m n, (n = 0 \/ forall p, ~ status_of m p cur) ->
    map fst m = map fst m /\ NoDup (@nil addr) /\ length (@nil addr) <= n /\
    (forall p, In p [] -> status_of m p cur) /\ (length (@nil addr) = n \/ forall p, status_of m p cur -> In p []) /\
    (forall p, In p [] -> status_of m p Active) /\
    (forall p st, ~ In p [] -> (status_of m p st <-> status_of m p st))).
  { intros m0 n H. split; [auto|]. split; [constructor|]. split; [cbn; lia|]. split; [intros ? []|]. split.
    - destruct H as [->|H]; [left; auto|right; intros q X; destruct (H q X)].
    - split; [intros ? []|tauto]. }
  induction m as [|[p st] t IH]; intros n m' out N H.
  - assert (E : (m', out) = ([], [])) by (destruct n; symmetry; exact H). injection E as -> ->.
    apply NIL. right. intros ? [].
  - destruct n as [|n]; cbn in H.
    + injection H as <- <-. apply NIL. auto.
    + cbn [map fst] in N. inversion N as [|? ? Np Nt]; subst.
      destruct (status_eqb st cur) eqn:E.
      * apply status_eqb_spec in E. subst st. destruct (activate_pass cur n t) as [m1 o1] eqn:E1.
        cbn in H. injection H as <- <-. destruct (IH n m1 o1 Nt E1) as (A & B & C & D & F & G & I).
        assert (Npo : ~ In p o1).
        { intro X. apply D in X. apply Np. apply (in_map fst) in X. exact X. }
        cbn [map fst length]. repeat split.
        -- congruence.
        -- constructor; auto.
        -- lia.
        -- intros q [<-|X]; [left; auto|right; apply D; auto].
        -- destruct F as [F|F]; [left; lia|right]. intros q [X|X]; [injection X as ->; left; auto|right; auto].
        -- intros q [<-|X]; [left; auto|right; apply G; auto].
        -- intros [X|X]; [injection X as -> _; exfalso; apply H; left; auto|]. right. apply I; auto. intro. apply H. right; auto.
        -- intros [X|X]; [injection X as -> _; exfalso; apply H; left; auto|]. right. apply I; auto. intro. apply H. right; auto.
      * destruct (activate_pass cur (S n) t) as [m1 o1] eqn:E1.
        cbn in H. injection H as <- <-. destruct (IH (S n) m1 o1 Nt E1) as (A & B & C & D & F & G & I).
        cbn [map fst]. repeat split; auto.
        -- congruence.
        -- intros q X. right. apply D. auto.
        -- destruct F as [F|F]; [left; auto|right]. intros q [X|X]; [|auto]. injection X as -> ->.
           assert (status_eqb cur cur = true) by (apply status_eqb_spec; auto). congruence.
        -- intros q X. right. apply G. auto.
        -- intros [X|X]; [left; auto|right; apply I; auto].
        -- intros [X|X]; [left; auto|right; apply I; auto].
Qed.

(** The whole loop. *)
Section Activate.
  Variables (rank : status -> option nat) (limit : nat) (m0 : peers).
  Hypothesis N0 : NoDup (map fst m0).
  Record act_inv (k : nat) (m : peers) (acc : list addr) : Prop := {
    ai_size : length acc <= limit;
    ai_nodup : NoDup acc;
    ai_elig : forall p, In p acc -> exists st r, status_of m0 p st /\ rank st = Some r /\ r < k;
    ai_max : length acc = limit \/ forall p st r, status_of m0 p st -> rank st = Some r -> r < k -> In p acc;
    ai_prio : forall p st r q st' r', In p acc -> status_of m0 p st -> rank st = Some r ->
      ~ In q acc -> status_of m0 q st' -> rank st' = Some r' -> r <= r';
    ai_marked : forall p, In p acc -> status_of m p Active;
    ai_frame : forall p st, ~ In p acc -> (status_of m p st <-> status_of m0 p st);
    ai_keys : map fst m = map fst m0 }.
  Lemma status_fun : forall m p a b, NoDup (map fst m) -> status_of m p a -> status_of m p b -> a = b.
  Proof. intros m p a b N A B. apply status_get in A, B; auto. congruence. Qed.

  Lemma activate_spec : forall order k m acc,
    (forall i st, nth_error order i = Some st <-> rank st = Some (k + i)) ->
    (k = 0 -> acc = []) -> (forall r, rank Active = Some r -> r = 0) ->
    act_inv k m acc ->
    exists m' out, activate limit order m acc = Val (m', out) /\ act_inv (k + length order) m' out.
  Proof.
    induction order as [|st rest IH]; intros k m acc HO HK HA I.
    - exists m, acc. cbn. rewrite Nat.add_0_r. auto.
    - cbn [activate]. pose proof (ai_size I) as SZ.
      replace (limit <? length acc) with false by (symmetry; apply Nat.ltb_ge; auto).
      destruct (activate_pass st (limit - length acc) m) as [m1 o1] eqn:E1. cbn [fst snd].
      assert (Nm : NoDup (map fst m)) by (rewrite (ai_keys I); auto).
      destruct (pass_props _ _ _ Nm E1) as (A & B & C & D & F & G & J).
      assert (RK : rank st = Some k) by (rewrite <- (Nat.add_0_r k); apply (HO 0 st); reflexivity).
      (* peers taken now had status [st] originally and were not taken before *)
      assert (NEW : forall p, In p o1 -> status_of m0 p st /\ ~ In p acc).
      { intros p Hp. apply D in Hp. destruct (in_dec addr_dec p acc) as [X|X].
        - exfalso. pose proof (ai_marked I p X) as Y. pose proof (@status_fun m p _ _ Nm Hp Y) as Z. subst st.
          apply HA in RK. subst k. rewrite HK in X by auto. destruct X.
        - split; auto. apply (ai_frame I); auto. }
      assert (OLD : forall p, status_of m0 p st -> ~ In p acc -> status_of m p st).
      { intros p Hp Hn. apply (ai_frame I); auto. }
      destruct (IH (S k) m1 (acc ++ o1)) as (m' & out & R & I'); auto.
      + intros i x. specialize (HO (S i) x). cbn [nth_error] in HO. rewrite HO. replace (k + S i) with (S k + i) by lia. tauto.
      + discriminate.
      + constructor.
        * rewrite app_length. lia.
        * assert (DIS : forall p, In p o1 -> ~ In p acc) by (intros; apply NEW; auto).
          pose proof (ai_nodup I) as NA. clear - NA B DIS. induction acc as [|x l IHl]; cbn; auto.
          inversion NA; subst. constructor.
          -- rewrite in_app_iff. intros [X|X]; [contradiction|]. apply (DIS x X). left; auto.
          -- apply IHl; auto. intros p Hp X. apply (DIS p Hp). right; auto.
        * intros p Hp. apply in_app_iff in Hp as [Hp|Hp].
          -- destruct (ai_elig I p Hp) as (s & r & H1 & H2 & H3). exists s, r. repeat split; auto.
          -- exists st, k. repeat split; auto. apply NEW; auto.
        * rewrite app_length. destruct F as [F|F]; [left; lia|].
          destruct (ai_max I) as [M|M].
          -- left. destruct o1 as [|x o1]; [cbn; lia|]. cbn in C. lia.
          -- right. intros p s r Hp Hr Hlt. apply in_app_iff.
             destruct (Nat.eq_dec r k) as [->|]; [|left; apply (M p s r); auto; lia].
             destruct (in_dec addr_dec p acc) as [X|X]; auto. right. apply F.
             assert (s = st).
             { assert (Y : nth_error (st :: rest) 0 = Some s) by (apply HO; rewrite Nat.add_0_r; auto). cbn in Y. congruence. }
             subst s. auto.
        * intros p s r q s' r' Hp Hs Hr Hq Hs' Hr'. rewrite in_app_iff in Hq.
          apply in_app_iff in Hp as [Hp|Hp].
          -- eapply (ai_prio I p q Hp Hs Hr); eauto.
          -- destruct (NEW p Hp) as [Y1 Y2]. assert (s = st) by (apply (@status_fun m0 p); auto). subst s.
             assert (r = k) by congruence. subst r.
             destruct (ai_max I) as [M|M].
             ++ exfalso. destruct o1; [destruct Hp|]. cbn in C. lia.
             ++ destruct (Nat.lt_ge_cases r' k); [|auto]. exfalso. apply Hq. left. eapply M; eauto.
        * intros p Hp. apply in_app_iff in Hp as [Hp|Hp]; [|apply G; auto].
          destruct (in_dec addr_dec p o1) as [X|X]; [apply G; auto|]. apply J; auto. apply (ai_marked I); auto.
        * intros p s Hp. rewrite in_app_iff in Hp. rewrite J by tauto. apply (ai_frame I). tauto.
        * rewrite A. apply (ai_keys I).
      + exists m', out. split; auto. cbn [length]. replace (k + S (length rest)) with (S k + length rest) by lia. auto.
  Qed.
  Lemma act_inv_start : act_inv 0 m0 [].
  Proof.
    constructor.
    - cbn. lia.
    - constructor.
    - intros p [].
    - right. intros. lia.
    - intros p st r q st' r' [].
    - intros p [].
    - tauto.
    - reflexivity.
  Qed.
  Lemma act_inv_end : forall k m out, act_inv k m out -> (forall st r, rank st = Some r -> r < k) -> good_batch rank limit m0 m out.
  Proof.
    intros k m out I HR. destruct I. constructor; auto.
    - intros p Hp. destruct (ai_elig0 p Hp) as (st & r & H1 & H2 & _). eauto.
    - destruct ai_max0 as [|M]; auto. right. intros. eapply M; eauto.
  Qed.
End Activate.

Lemma batch_spec : forall limit m, NoDup (map fst m) ->
  exists m' out, activate limit batch_order m [] = Val (m', out) /\ good_batch batch_rank limit m m' out.
Proof.
  intros limit m N. destruct (@activate_spec batch_rank limit m N batch_order 0 m []) as (m' & out & E & I); auto.
  - intros i st. cbn [Nat.add]. destruct i as [|[|[|[|i]]]]; cbn; destruct st; cbn; split; intro H; try discriminate; auto.
    + destruct i; discriminate. + destruct i; discriminate. + destruct i; discriminate. + destruct i; discriminate. + destruct i; discriminate.
  - discriminate.
  - apply act_inv_start.
  - exists m', out. split; auto. eapply act_inv_end; eauto. cbn. intros [] r H; cbn in H; try discriminate; injection H as <-; lia.
Qed.
Lemma good_spec : forall limit m, NoDup (map fst m) ->
  exists m' out, activate limit good_order m [] = Val (m', out) /\ good_batch good_rank limit m m' out.
Proof.
  intros limit m N. destruct (@activate_spec good_rank limit m N good_order 0 m []) as (m' & out & E & I); auto.
  - intros i st. cbn [Nat.add]. destruct i as [|[|[|[|i]]]]; cbn; destruct st; cbn; split; intro H; try discriminate; auto.
    + destruct i; discriminate. + destruct i; discriminate. + destruct i; discriminate. + destruct i; discriminate. + destruct i; discriminate.
  - cbn. congruence.
  - apply act_inv_start.
  - exists m', out. split; auto. eapply act_inv_end; eauto. cbn. intros [] r H; cbn in H; try discriminate; injection H as <-; lia.
Qed.

(** *** keys of the table *)
Lemma in_keys_qset : forall p st m q, In q (map fst (qset p st m)) <-> q = p \/ In q (map fst m).
Proof.
  intros. unfold qset. pose proof (keys_mset addr_eqb p st m) as E. unfold keys in E. rewrite E.
  destruct (mhas addr_eqb p m) eqn:H.
  - apply (mhas_in _ addr_eqb_spec) in H. unfold keys in H. split; auto. intros [->|]; auto.
  - rewrite in_app_iff. cbn. split; intros [|]; auto. destruct H0 as [|[]]; auto.
Qed.
Lemma NoDup_qset : forall p st m, NoDup (map fst m) -> NoDup (map fst (qset p st m)).
Proof. intros. apply (NoDup_mset _ addr_eqb_spec). auto. Qed.
Lemma extend_keys : forall ps m, NoDup (map fst m) -> NoDup (map fst (q_extend m ps)) /\
  forall q, In q (map fst (q_extend m ps)) <-> In q ps \/ In q (map fst m).
Proof.
  induction ps as [|p t IH]; intros m N; cbn [q_extend fold_left].
  - split; auto. cbn. tauto.
  - destruct (IH (q_insert m p)) as [A B]; [apply NoDup_qset; auto|]. split; auto.
    intro q. fold (q_extend (q_insert m p) t). rewrite B. unfold q_insert. rewrite in_keys_qset. cbn. split; intuition; subst; auto.
Qed.
Lemma return_keys : forall bad m, NoDup (map fst m) -> NoDup (map fst (q_return m bad)) /\
  forall q, In q (map fst (q_return m bad)) <-> In q (map fst bad) \/ In q (map fst m).
Proof.
  induction bad as [|[p st] t IH]; intros m N; cbn [q_return fold_left].
  - split; auto. cbn. tauto.
  - cbn [fst snd]. destruct (IH (qset p st m)) as [A B]; [apply NoDup_qset; auto|]. split; auto.
    intro q. fold (q_return (qset p st m) t). rewrite B. rewrite in_keys_qset. cbn. split; intuition; subst; auto.
Qed.
Lemma step_keys : forall m o, NoDup (map fst m) -> exists m' out, q_step m o = Val (m', out) /\ NoDup (map fst m') /\
  forall q, In q (map fst m') <-> In q (names o) \/ In q (map fst m).
Proof.
  intros m [p|ps|bad l|l|u] N; cbn [q_step names].
  - do 2 eexists. split; [reflexivity|]. split; [apply NoDup_qset; auto|]. intro q. unfold q_insert. rewrite in_keys_qset. cbn. intuition; subst; auto.
  - do 2 eexists. split; [reflexivity|]. apply extend_keys. auto.
  - destruct (@return_keys bad m N) as [A B]. unfold q_batch. destruct (@batch_spec l _ A) as (m' & out & E & G).
    exists m', out. split; auto. rewrite (gb_same_peers G). auto.
  - destruct (@good_spec l _ N) as (m' & out & E & G). unfold q_good. rewrite E. do 2 eexists. split; [reflexivity|].
    cbn [fst]. rewrite (gb_same_peers G). split; auto. cbn. tauto.
  - destruct (@good_spec u _ N) as (m' & out & E & G). unfold q_enough, q_good. rewrite E. do 2 eexists. split; [reflexivity|].
    cbn [fst]. rewrite (gb_same_peers G). split; auto. cbn. tauto.
Qed.
Lemma qrun_keys : forall m h m', qrun m h m' -> NoDup (map fst m) -> NoDup (map fst m') /\
  forall q, In q (map fst m') <-> (exists o out, In (o, out) h /\ In q (names o)) \/ In q (map fst m).
Proof.
  intros m h m' R. induction R as [m m' P|m m1 o m2 out h m' P E R IH]; intro N.
  - assert (P2 : Permutation (map fst m) (map fst m')) by (apply Permutation_map; auto). split.
    + eapply Permutation_NoDup; eauto.
    + intro q. split.
      * intro H. right. eapply Permutation_in; [apply Permutation_sym|]; eauto.
      * intros [(? & ? & [] & _)|H]. eapply Permutation_in; eauto.
  - assert (P2 : Permutation (map fst m) (map fst m1)) by (apply Permutation_map; auto).
    assert (N1 : NoDup (map fst m1)) by (eapply Permutation_NoDup; eauto).
    destruct (@step_keys _ o N1) as (m3 & out3 & E3 & N3 & K3). rewrite E in E3. injection E3 as <- <-.
    destruct (IH N3) as [A B]. split; auto. intro q. rewrite B, K3. split.
    + intros [(o' & out' & I & X)|[X|X]].
      * left. exists o', out'. split; auto. right; auto.
      * left. exists o, out. split; auto. left; auto.
      * right. eapply Permutation_in; [apply Permutation_sym|]; eauto.
    + intros [(o' & out' & [I|I] & X)|X].
      * injection I as -> ->. auto.
      * left. eauto.
      * right. right. eapply Permutation_in; eauto.
Qed.
Lemma qset_status_other : forall p st m q s, NoDup (map fst m) -> q <> p -> (status_of (qset p st m) q s <-> status_of m q s).
Proof.
  intros p st m q s N H. rewrite !status_get; auto using NoDup_qset. unfold qget, qset.
  rewrite (mget_mset_other _ addr_eqb_spec) by auto. tauto.
Qed.
Lemma extend_status_other : forall ps m q s, NoDup (map fst m) -> ~ In q ps -> (status_of (q_extend m ps) q s <-> status_of m q s).
Proof.
  induction ps as [|p t IH]; intros m q s N H; cbn [q_extend fold_left]; [tauto|]. cbn in H.
  fold (q_extend (q_insert m p) t). unfold q_insert. rewrite IH by (auto using NoDup_qset). apply qset_status_other; auto.
Qed.
Lemma return_status_other : forall bad m q s, NoDup (map fst m) -> ~ In q (map fst bad) -> (status_of (q_return m bad) q s <-> status_of m q s).
Proof.
  induction bad as [|[p st] t IH]; intros m q s N H; cbn [q_return fold_left]; [tauto|]. cbn in H. cbn [fst snd].
  fold (q_return (qset p st m) t). rewrite IH by (auto using NoDup_qset). apply qset_status_other; auto.
Qed.
(** An active peer nobody names stays active and is in no batch. *)
Lemma stays_active : forall m o m' out p, NoDup (map fst m) -> q_step m o = Val (m', out) -> status_of m p Active ->
  ~ In p (names o) -> status_of m' p Active /\ (forall bad l, o = QBatch bad l -> ~ In p out).
Proof.
  intros m [q|ps|bad l|l|u] m' out p N E A H; cbn [q_step names] in *.
  - injection E as <- <-. split; [|discriminate]. unfold q_insert. apply qset_status_other; auto. cbn in H. intuition.
  - injection E as <- <-. split; [|discriminate]. apply extend_status_other; auto.
  - destruct (@return_keys bad m N) as [N1 _]. unfold q_batch in E. destruct (@batch_spec l _ N1) as (m2 & out2 & E2 & G).
    rewrite E in E2. injection E2 as <- <-.
    assert (A1 : status_of (q_return m bad) p Active) by (apply return_status_other; auto).
    assert (NI : ~ In p out).
    { intro X. destruct (gb_eligible G p X) as (st & r & S1 & R1). pose proof (@status_fun _ p _ _ N1 S1 A1). subst st. discriminate. }
    split; [apply (gb_frame G); auto|]. intros. auto.
  - destruct (@good_spec l _ N) as (m2 & out2 & E2 & G). unfold q_good in E. rewrite E2 in E. injection E as <- <-.
    split; [|discriminate]. destruct (in_dec addr_dec p out2) as [X|X]; [apply (gb_marked G); auto|]. apply (gb_frame G); auto.
  - destruct (@good_spec u _ N) as (m2 & out2 & E2 & G). unfold q_enough, q_good in E. rewrite E2 in E. injection E as <- <-.
    split; [|discriminate]. destruct (in_dec addr_dec p out2) as [X|X]; [apply (gb_marked G); auto|]. apply (gb_frame G); auto.
Qed.
