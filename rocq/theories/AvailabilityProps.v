(** C30 continued: the exact account of the availability counts in every
    history. *)
From Coq Require Import List NArith ZArith Lia Bool Arith Permutation.
From Coq Require Import Init.Byte.
From Verif Require Import Base Assoc BitSpec BitmapModel BitmapProofs IdModel WireModel PeersModel PeersSpec PeersProofs PeersProps ManagerModel ManagerSpec ManagerProofs ManagerProofs2 ManagerProps.
Import ListNotations.
Set Implicit Arguments.

(** Active peers whose announcement of piece [i] is lost in a step: they stay
    active, had announced it, and afterwards count as not having it. *)
Definition forgotten (a a' : list (addr * pinfo)) (i : nat) : nat :=
  length (filter (fun x => piece_inb (pi_haves (snd x)) i &&
    match aget (fst x) a' with Some y => negb (piece_inb (pi_haves y) i) | None => false end) a).
(** A history with the number of announcements of piece [i] lost in it. *)
Inductive losing_run (i : nat) : sys -> list (mevent * list mout) -> sys -> nat -> Prop :=
| lr_nil : forall s, losing_run i s [] s 0
| lr_cons : forall s s1 e s2 out h s' k, sys_perm s s1 -> sys_step s1 e = Val (s2, out) -> losing_run i s2 h s' k ->
    losing_run i s ((e, out) :: h) s' (forgotten (m_active (fst s1)) (m_active (fst s2)) i + k).
Lemma losing_total : forall i s h s', sys_run s h s' -> exists k, losing_run i s h s' k.
Proof. induction 1 as [s|s s1 e s2 out h s' P S R (k & IH)]; eexists; econstructor; eauto. Qed.

(** ** nothing forgotten *)
Lemma filter_none : forall A (f : A -> bool) l, (forall x, In x l -> f x = false) -> length (filter f l) = 0.
Proof. induction l as [|y t IH]; intros H; auto. cbn. rewrite H by (left; auto). apply IH. intros; apply H; right; auto. Qed.
Lemma none_forgotten : forall a a' i, NoDup (map fst a) ->
  (forall p o y, aget p a = Some o -> aget p a' = Some y -> piece_inb (pi_haves o) i = true -> piece_inb (pi_haves y) i = true) -> forgotten a a' i = 0.
Proof.
  intros a a' i N H. apply filter_none. intros [p o] IN. cbn [fst snd]. apply aget_spec in IN; auto.
  destruct (piece_inb (pi_haves o) i) eqn:E; auto. cbn [andb]. destruct (aget p a') as [y|] eqn:G; auto. rewrite (H _ _ _ IN G E). reflexivity.
Qed.
Lemma forgotten_aset : forall a p inf o i, NoDup (map fst a) -> aget p a = Some o ->
  (piece_inb (pi_haves o) i = true -> piece_inb (pi_haves inf) i = true) -> forgotten a (aset p inf a) i = 0.
Proof.
  intros a p inf o i N G M. apply none_forgotten; auto. intros q o' y G1 G2 E. unfold aget, aset in *.
  destruct (addr_dec q p) as [->|D].
  - rewrite (mget_mset_same _ addr_eqb_spec) in G2. injection G2 as <-. rewrite G in G1. injection G1 as <-. auto.
  - rewrite (mget_mset_other _ addr_eqb_spec) in G2 by auto. congruence.
Qed.
Lemma forgotten_same : forall a i, NoDup (map fst a) -> forgotten a a i = 0.
Proof. intros a i N. apply none_forgotten; auto. intros. congruence. Qed.
Lemma forgotten_adel : forall a p i, NoDup (map fst a) -> forgotten a (adel p a) i = 0.
Proof.
  intros a p i N. apply none_forgotten; auto. intros q o y G1 G2 E. unfold aget, adel in *. destruct (addr_dec q p) as [->|D].
  - rewrite (mget_mdel_same _ addr_eqb_spec) in G2 by auto. discriminate.
  - rewrite (mget_mdel_other _ addr_eqb_spec) in G2 by auto. congruence.
Qed.

(** ** one step *)
Definition balance (n : nat) (m m' : mgr) : Prop := forall i, i < n ->
  (fr (m_freq m') i + N.of_nat (holders (m_active m) i) =
   fr (m_freq m) i + N.of_nat (holders (m_active m') i) + N.of_nat (forgotten (m_active m) (m_active m') i))%N.
(** The same with nothing forgotten. *)
Definition steady (n : nat) (m m' : mgr) : Prop := forall i, i < n -> forgotten (m_active m) (m_active m') i = 0 /\
  (fr (m_freq m') i + N.of_nat (holders (m_active m) i) = fr (m_freq m) i + N.of_nat (holders (m_active m') i))%N.
Lemma steady_balance : forall n m m', steady n m m' -> balance n m m'.
Proof. intros n m m' S i Hi. destruct (S i Hi) as [F E]. rewrite F. lia. Qed.
Lemma steady_update : forall n m p o inf f, inv n m -> aget p (m_active m) = Some o ->
  (forall i, i < n -> (fr f i + N.of_nat (b1 (piece_inb (pi_haves o) i)) = fr (m_freq m) i + N.of_nat (b1 (piece_inb (pi_haves inf) i)))%N) ->
  (forall i, i < n -> piece_inb (pi_haves o) i = true -> piece_inb (pi_haves inf) i = true) ->
  steady n m (with_freq (with_active m (aset p inf (m_active m))) f).
Proof.
  intros n m p o inf f I G F M i Hi. cbn [with_freq with_active m_freq m_active].
  split; [exact (@forgotten_aset _ p inf o i (i_nodup I) G (M i Hi))|].
  pose proof (holders_aset (m_active m) p inf i) as HA. rewrite G in HA. specialize (F i Hi). lia.
Qed.
Lemma steady_refl : forall n m, inv n m -> steady n m m.
Proof. intros n m I i Hi. split; [apply forgotten_same; apply (i_nodup I)|lia]. Qed.
Lemma message_steady : forall n m p c m', inv n m -> handle_message m p c = Val m' -> steady n m m'.
Proof.
  assert (MOD : forall n m p g, inv n m -> (forall i, pi_haves (g i) = pi_haves i) -> steady n m (modify m p g)).
  { intros n m p g I H. unfold modify. destruct (aget p (m_active m)) as [o|] eqn:G; [|apply steady_refl; auto].
    change (with_active m (aset p (g o) (m_active m))) with (with_freq (with_active m (aset p (g o) (m_active m))) (m_freq m)).
    eapply steady_update; eauto; intros; rewrite H; auto. }
  assert (GONE : forall n m p st m', inv n m -> mark_inactive m p st = Val m' -> steady n m m').
  { intros n m p st m' I H. unfold mark_inactive in H. destruct (aget p (m_active m)) as [o|] eqn:G; [|injection H as <-; apply steady_refl; auto].
    assert (IN : In (p, o) (m_active m)) by (apply aget_spec; auto; apply (i_nodup I)).
    destruct (i_info I _ _ IN) as [O1 O2]. rewrite (bm_ok_bits O1) in H. cbn [rbind] in H.
    assert (HH : forall i, holders (adel p (m_active m)) i + b1 (piece_inb (pi_haves o) i) = holders (m_active m) i).
    { intro i. pose proof (holders_adel (m_active m) p i) as HA. rewrite G in HA. auto. }
    destruct (@freq_dec_total (m_freq m) (firstn n (bits (pi_haves o)))) as (f & E & L & F).
    { intros j Hj Hh. rewrite bm_ok_hb in Hh. apply andb_true_iff in Hh as [H1 H2]. apply Nat.ltb_lt in H1.
      pose proof (i_count I H1). specialize (HH j). rewrite H2 in HH. cbn [b1] in HH. lia. }
    rewrite E in H. cbn [rbind] in H. injection H as <-. intros i Hi. cbn [with_freq with_active with_inactive m_freq m_active].
    split; [apply forgotten_adel; apply (i_nodup I)|]. rewrite F, bm_ok_hb. replace (i <? n) with true by (symmetry; apply Nat.ltb_lt; auto). cbn [andb].
    pose proof (i_count I Hi) as CI. specialize (HH i). destruct (piece_inb (pi_haves o) i); cbn [b1] in *; lia. }
  intros n m p c m' I H. destruct c; cbn [handle_message] in H; try discriminate H; try (injection H as <-; auto using steady_refl; fail); eauto.
  - unfold handle_have in H. destruct (aget p (m_active m)) as [o|] eqn:G; [|injection H as <-; apply steady_refl; auto].
    destruct (bm_change (pi_haves o) (N.to_nat i) true) as [[b' old]| |] eqn:E; try discriminate. cbn [rbind snd fst] in H.
    pose proof (@inb_change _ _ _ _ _ E) as (OLD & LI & BB). destruct old.
    + injection H as <-. change (steady n m (with_freq (with_active m (aset p (mk_pinfo (pi_choking o) (pi_interested o) b' (pi_working o)) (m_active m))) (m_freq m))).
      eapply steady_update; eauto; intros j Hj; cbn [pi_haves]; rewrite BB; destruct (Nat.eqb_spec j (N.to_nat i)) as [->|]; auto. rewrite <- OLD; auto.
    + destruct (freq_inc (m_freq m) (N.to_nat i)) as [f| |] eqn:F; try discriminate. cbn [rmap] in H. injection H as <-.
      apply freq_inc_val in F as (L1 & L2 & _ & F). eapply steady_update; eauto; intros j Hj; cbn [pi_haves]; rewrite BB.
      * rewrite F. destruct (Nat.eqb_spec j (N.to_nat i)) as [->|]; [rewrite <- OLD; cbn; lia|lia].
      * destruct (j =? N.to_nat i); auto.
  - rename b into d. unfold accept_bitfield in H. destruct (aget p (m_active m)) as [o|] eqn:G; [|injection H as <-; apply steady_refl; auto].
    assert (IN : In (p, o) (m_active m)) by (apply aget_spec; auto; apply (i_nodup I)). destruct (i_info I _ _ IN) as [O1 O2].
    destruct (N.ltb_spec 0 (bm_weight (pi_haves o))) as [W|W]; [injection H as <-; apply steady_refl; auto|].
    destruct (bm_replace_data (pi_haves o) d) as [b| |] eqn:E; try discriminate; [|injection H as <-; apply steady_refl; auto].
    pose proof (@ok_replace _ _ _ _ O1 E) as O3. rewrite (bm_ok_bits O3) in H. cbn [rbind] in H.
    destruct (freq_add (m_freq m) 0 (firstn n (bits b))) as [f| |] eqn:F; try discriminate. cbn [rbind] in H. injection H as <-.
    apply freq_add_val in F as [L F]. eapply steady_update; eauto; intros i Hi; cbn [pi_haves].
    + rewrite F. cbn [Nat.leb andb]. rewrite Nat.sub_0_r, bm_ok_hb.
      replace (i <? n) with true by (symmetry; apply Nat.ltb_lt; auto). rewrite (@weight_zero (pi_haves o)) by lia. destruct (piece_inb b i); cbn; lia.
    + rewrite (@weight_zero (pi_haves o)) by lia. discriminate.
Qed.
(** Assigning pieces does not touch what peers have announced. *)
Definition view (a : list (addr * pinfo)) : list (addr * bitmap) := map (fun x => (fst x, pi_haves (snd x))) a.
Lemma view_holders : forall a a' i, view a = view a' -> holders a i = holders a' i.
Proof.
  induction a as [|[p o] a IH]; intros [|[q y] a'] i H; try discriminate; auto. cbn in H. injection H as <- E V. rewrite !holders_cons. cbn [snd]. rewrite E. f_equal. auto.
Qed.
Lemma view_get : forall a a' p, view a = view a' -> option_map pi_haves (aget p a) = option_map pi_haves (aget p a').
Proof.
  induction a as [|[q o] a IH]; intros [|[q' y] a'] p H; try discriminate; auto. cbn in H. injection H as <- E V.
  unfold aget. cbn [mget]. destruct (addr_eqb p q); cbn; [rewrite E; auto|]. apply IH. auto.
Qed.
Lemma view_aset : forall a p o inf, aget p a = Some o -> pi_haves inf = pi_haves o -> view (aset p inf a) = view a.
Proof.
  induction a as [|[q y] a IH]; intros p o inf G E; unfold aget, aset in *; cbn [mget mset] in *; [discriminate|].
  destruct (addr_eqb p q) eqn:D.
  - injection G as ->. apply addr_eqb_spec in D. subst q. cbn. rewrite E. reflexivity.
  - cbn. f_equal. eapply IH; eauto.
Qed.
Lemma assign_view : forall k n m sent m' out, inv n m -> N.to_nat (bm_weight (m_pieces m)) + k <= 9 -> assign_loop m sent k = Val (m', out) ->
  view (m_active m') = view (m_active m) /\ m_freq m' = m_freq m.
Proof.
  induction k as [|k IH]; intros n m sent m' out I L H; cbn [assign_loop] in H; [injection H as <- <-; auto|].
  destruct (select_exact I) as (r & E & R). rewrite E in H. cbn [rbind] in H. destruct r as [[[p i] h]|]; [|injection H as <- <-; auto].
  destruct R as (W & LE & HH & (inf & IN & _)).
  assert (KP : In p (map fst (m_active m))) by (apply (in_map fst) in IN; auto).
  unfold start_piece in H. destruct (existsb (addr_eqb p) (m_conn m) && sent k) eqn:X; cbn [rbind rmap fst snd] in H.
  - destruct (@mark_spec n m p i I KP) as (m1 & E1 & I1 & X1 & K1 & Q1 & C1 & L1 & F1 & W1 & P1).
    { destruct W as (_ & B & _). rewrite (bo_len (i_local I)) in B. auto. } { lia. }
    rewrite E1 in H. cbn [rmap rbind fst snd] in H. destruct (assign_loop m1 sent k) as [[m2 o2]| |] eqn:E2; try discriminate H. injection H as <- <-.
    destruct (IH _ _ _ _ _ I1 ltac:(lia) E2) as [V F]. cbn [fst]. split; [|congruence]. rewrite V.
    unfold mark_ongoing in E1. destruct (aget p (m_active m)) as [o|] eqn:G; [|apply aget_none in G; contradiction]. cbn [rbind] in E1.
    destruct (bm_change (m_pieces m) i true); try discriminate. cbn [rbind] in E1. destruct (bm_change (pi_working o) i true); try discriminate. injection E1 as <-.
    cbn [with_pieces with_active m_active]. eapply view_aset; eauto.
  - destruct (assign_loop m sent k) as [[m2 o2]| |] eqn:E2; try discriminate H. injection H as <- <-. eapply IH; eauto. lia.
Qed.
Lemma assign_steady : forall n m sent m' out, inv n m -> m_assign m sent = Val (m', out) -> steady n m m'.
Proof.
  intros n m sent m' out I H. unfold m_assign, MAX_ACTIVE_PIECES in H. pose proof (i_weight I) as W.
  destruct (Nat.ltb_spec 9 (N.to_nat (bm_weight (m_pieces m)))); [lia|].
  assert (L : N.to_nat (bm_weight (m_pieces m)) + (9 - N.to_nat (bm_weight (m_pieces m))) <= 9) by lia.
  destruct (assign_view _ _ I L H) as [V F]. intros i Hi. rewrite F, (@view_holders _ _ i V).
  split; [|lia]. apply none_forgotten; [apply (i_nodup I)|]. intros p o y G1 G2 E. pose proof (@view_get _ _ p V) as X. rewrite G1, G2 in X. cbn in X. congruence.
Qed.
(** Connecting to the peers of a batch: what the peers among them that were
    active had announced is forgotten. *)
Lemma add_peers_get : forall ps n m m' out, inv n m -> length (m_active m) + length ps <= 10 -> add_peers m ps = Val (m', out) ->
  m_freq m' = m_freq m /\ NoDup (map fst (m_active m')) /\
  forall q, match aget q (m_active m') with
            | Some y => (In q ps /\ forall i, piece_inb (pi_haves y) i = false) \/ (~ In q ps /\ aget q (m_active m) = Some y)
            | None => ~ In q ps /\ aget q (m_active m) = None
            end.
Proof.
  induction ps as [|p t IH]; intros n m m' out I L H; cbn [add_peers] in H.
  - injection H as <- <-. split; auto. split; [apply (i_nodup I)|]. intro q. destruct (aget q (m_active m)); auto.
  - destruct (@pi_new_ok (bm_len (m_local m))) as (inf & E & O1 & O2 & Z & _). { rewrite (bo_len (i_local I)). apply (i_pos I). }
    rewrite E in H. cbn [rbind] in H. set (m1 := with_active (with_conn m (fst (c_connect (m_conn m) p))) (aset p inf (m_active m))) in *.
    destruct (@add_peers_spec [p] n m I) as (m1' & o1 & E1 & I1 & _). { cbn [length] in *. lia. }
    cbn [add_peers] in E1. rewrite E in E1. cbn [rbind rmap fst snd] in E1. injection E1 as E1 _. fold m1 in E1. subst m1'.
    destruct (add_peers m1 t) as [[m2 o2]| |] eqn:E2; try discriminate H. cbn [rmap fst snd] in H. injection H as <- <-.
    assert (L1 : length (m_active m1) + length t <= 10).
    { subst m1. cbn [with_active m_active length] in *. destruct (in_dec addr_dec p (map fst (m_active m))).
      - rewrite <- (map_length fst), aset_keys, map_length; auto. lia.
      - rewrite aset_keys_new by auto. rewrite app_length. cbn [length] in *. lia. }
    destruct (IH n m1 _ _ I1 L1 E2) as (F & N & G). split; [exact F|]. split; auto. intro q. specialize (G q).
    assert (A1 : aget q (m_active m1) = if addr_eqb q p then Some inf else aget q (m_active m)).
    { subst m1. cbn [with_active m_active]. unfold aget, aset. destruct (addr_eqb q p) eqn:D.
      - apply addr_eqb_spec in D. subst q. apply (mget_mset_same _ addr_eqb_spec).
      - apply (mget_mset_other _ addr_eqb_spec). intro X. subst q. rewrite (proj2 (addr_eqb_spec p p) eq_refl) in D. discriminate. }
    rewrite A1 in G. destruct (addr_eqb q p) eqn:D.
    + apply addr_eqb_spec in D. subst q. destruct (aget p (m_active m2)) as [y|].
      * left. split; [left; auto|]. destruct G as [[_ G]|[_ G]]; auto. injection G as ->. auto.
      * destruct G as [_ G]. discriminate.
    + assert (D' : p <> q) by (intro X; subst q; rewrite (proj2 (addr_eqb_spec p p) eq_refl) in D; discriminate).
      destruct (aget q (m_active m2)) as [y|].
      * destruct G as [[G1 G2]|[G1 G2]]; [left; split; [right; auto|auto]|right]. split; auto. intros [X|X]; auto.
      * destruct G as [G1 G2]. split; auto. intros [X|X]; auto.
Qed.
Lemma holders_split : forall ps a a' i, NoDup (map fst a) -> NoDup (map fst a') ->
  (forall q, match aget q a' with
            | Some y => (In q ps /\ forall i, piece_inb (pi_haves y) i = false) \/ (~ In q ps /\ aget q a = Some y)
            | None => ~ In q ps /\ aget q a = None
            end) -> holders a i = holders a' i + forgotten a a' i.
Proof.
  intros ps a a' i N N' G. unfold holders, forgotten.
  set (f := fun x : addr * pinfo => piece_inb (pi_haves (snd x)) i).
  set (g := fun x : addr * pinfo => match aget (fst x) a' with Some y => negb (piece_inb (pi_haves y) i) | None => false end).
  assert (S : length (filter f a) = length (filter (fun x => f x && negb (g x)) a) + length (filter (fun x => f x && g x) a)).
  { clear. induction a as [|x a IH]; auto. cbn. destruct (f x), (g x); cbn; lia. }
  rewrite S. f_equal. 
  assert (NF : forall h l, NoDup (map (@fst addr pinfo) l) -> NoDup (filter h l)).
  { intros h l ND. apply NoDup_filter. eapply NoDup_map_inv; eauto. }
  apply Permutation_length. apply NoDup_Permutation; auto. intros [q y]. rewrite !filter_In. unfold f, g. cbn [fst snd]. specialize (G q). split.
  - intros [IN E]. apply andb_true_iff in E as [E1 E2]. apply aget_spec in IN; auto. destruct (aget q a') as [z|] eqn:GA.
    + destruct G as [[_ G]|[_ G]]; [rewrite G in E2; discriminate|]. rewrite IN in G. injection G as <-. split; auto. apply aget_spec; auto.
    + destruct G as [_ G]. congruence.
  - intros [IN E]. apply aget_spec in IN; auto. rewrite IN in G |- *. destruct G as [[_ G]|[_ G]]; [rewrite G in E; discriminate|].
    split; [apply aget_spec; auto|]. rewrite E. reflexivity.
Qed.
Lemma refresh_balance : forall n m tab m' tab' out, inv n m -> NoDup (map fst tab) -> m_refresh m tab = Val (m', tab', out) -> balance n m m'.
Proof.
  intros n m tab m' tab' out I N H. unfold m_refresh in H. pose proof (i_size I) as SZ. unfold MAX_ACTIVE_PEERS in H.
  destruct (Nat.ltb_spec 10 (length (m_active m))); [lia|].
  destruct (Nat.eqb_spec (10 - length (m_active m)) 0) as [Z|Z]; [injection H as <- <- <-; apply steady_balance, steady_refl; auto|].
  destruct (@C25_batch tab (m_inactive m) (10 - length (m_active m)) N) as (t1 & t' & ps & E & N1 & _ & G).
  rewrite E in H. cbn [rbind fst snd] in H. destruct (add_peers (with_inactive m []) ps) as [[m2 o2]| |] eqn:E2; try discriminate H. injection H as <- <- <-.
  assert (LB : length (m_active (with_inactive m [])) + length ps <= 10) by (cbn [with_inactive m_active]; pose proof (gb_size G); lia).
  destruct (add_peers_get ps (inv_inactive [] I) LB E2) as (F & N2 & A).
  cbn [with_inactive m_active m_freq] in *. intros i Hi. cbn [fst]. rewrite F. rewrite (@holders_split ps _ _ i (i_nodup I) N2 A). lia.
Qed.
Lemma step_balance : forall n s e s' out, sys_inv n s -> sys_step s e = Val (s', out) -> balance n (fst s) (fst s').
Proof.
  intros n [m t] e s' out [I N] E. cbn [fst snd] in *. destruct e as [p c| |f|o]; cbn [sys_step fst snd] in E.
  - destruct (handle_message m p c) as [m'| |] eqn:H; try discriminate. injection E as <- <-. eapply steady_balance, message_steady; eauto.
  - destruct (m_refresh m t) as [[[m' t'] o']| |] eqn:H; try discriminate. injection E as <- <-. eapply refresh_balance; eauto.
  - destruct (m_assign m f) as [[m' o']| |] eqn:H; try discriminate. injection E as <- <-. eapply steady_balance, assign_steady; eauto.
  - destruct (q_step t o) as [[t' o']| |] eqn:H; try discriminate. injection E as <- <-. apply steady_balance, steady_refl; auto.
Qed.
Lemma losing_account : forall n i s h s' k x, losing_run i s h s' k -> sys_inv n s -> i < n ->
  fr (m_freq (fst s)) i = (N.of_nat (holders (m_active (fst s)) i) + x)%N ->
  fr (m_freq (fst s')) i = (N.of_nat (holders (m_active (fst s')) i) + x + N.of_nat k)%N.
Proof.
  intros n i s h s' k x R. revert x. induction R as [s|s s1 e s2 out h s' k P S R IH]; intros x I Hi E; [lia|].
  pose proof (perm_inv I P) as I1. pose proof (step_inv _ I1 S) as I2. pose proof (@step_balance n _ _ _ _ I1 S i Hi) as B.
  assert (E1 : fr (m_freq (fst s1)) i = (N.of_nat (holders (m_active (fst s1)) i) + x)%N).
  { destruct P as (a & t & P & _ & ->). cbn [fst with_active m_freq m_active]. rewrite <- (holders_perm i P). exact E. }
  rewrite (IH (x + N.of_nat (forgotten (m_active (fst s1)) (m_active (fst s2)) i))%N I2 Hi); lia.
Qed.

(** ** C30 *)
(** In every history the count of a piece is the number of its holders plus the
    number of announcements of it that were forgotten so far, and so never gets
    right again once one has been. *)
Theorem C30_account : forall hs s0 h s i k, sys_start hs s0 -> losing_run i s0 h s k -> i < length hs ->
  nth i (m_freq (fst s)) 0%N = (N.of_nat (holders (m_active (fst s)) i) + N.of_nat k)%N.
Proof.
  intros hs s0 h s i k A R Hi. pose proof (start_inv A) as C.
  pose proof (@losing_account _ i _ _ _ _ 0%N R (k_inv C) Hi) as X. pose proof (k_exact C Hi) as Y. unfold fr in *. lia.
Qed.
(** Only a refresh forgets announcements: those of a peer that is active but
    listed as available in the table of peers. *)
Theorem C30_forgotten : forall hs s e s' out i, sys_reach hs s -> sys_step s e = Val (s', out) -> i < length hs ->
  forgotten (m_active (fst s)) (m_active (fst s')) i <> 0 ->
  e = ERefresh /\ exists p o, In (p, o) (m_active (fst s)) /\ piece_inb (pi_haves o) i = true /\
    ((exists st, In (p, st) (snd s) /\ st <> Active) \/ In p (map fst (m_inactive (fst s)))).
Proof.
  intros hs [m t] e s' out i R E Hi F. destruct (reach_inv_m R) as [I N]. cbn [fst snd] in *. destruct e as [p c| |f|o]; cbn [sys_step fst snd] in E.
  - destruct (handle_message m p c) as [m'| |] eqn:H; try discriminate. injection E as <- <-. cbn [fst] in F.
    destruct (@message_steady _ _ _ _ _ I H i Hi). contradiction.
  - split; auto. destruct (m_refresh m t) as [[[m' t'] o']| |] eqn:H; try discriminate. injection E as <- <-. cbn [fst] in F.
    unfold m_refresh in H. pose proof (i_size I) as SZ. unfold MAX_ACTIVE_PEERS in H. destruct (Nat.ltb_spec 10 (length (m_active m))); [lia|].
    destruct (Nat.eqb_spec (10 - length (m_active m)) 0) as [Z|Z]; [injection H as <- <- <-; rewrite forgotten_same in F by apply (i_nodup I); congruence|].
    destruct (@C25_batch t (m_inactive m) (10 - length (m_active m)) N) as (t1 & t2 & ps & E & N1 & T & G).
    rewrite E in H. cbn [rbind fst snd] in H. destruct (add_peers (with_inactive m []) ps) as [[m2 o2]| |] eqn:E2; try discriminate H. injection H as <- <- <-.
    assert (LB : length (m_active (with_inactive m [])) + length ps <= 10) by (cbn [with_inactive m_active]; pose proof (gb_size G); lia).
    destruct (add_peers_get ps (inv_inactive [] I) LB E2) as (_ & N2 & A).
    cbn [with_inactive m_active] in *. cbn [fst] in F. unfold forgotten in F.
    destruct (filter _ (m_active m)) as [|[p o] l] eqn:FL; [cbn in F; congruence|].
    assert (IN : In (p, o) ((p, o) :: l)) by (left; auto). rewrite <- FL in IN. apply filter_In in IN as [IN X]. cbn [fst snd] in X.
    apply andb_true_iff in X as [X1 X2]. exists p, o. split; auto. split; auto.
    assert (P : In p ps).
    { specialize (A p). destruct (aget p (m_active m2)) as [y|]; [|discriminate]. destruct A as [[A _]|[_ A]]; auto.
      apply aget_spec in IN; [|apply (i_nodup I)]. rewrite IN in A. injection A as <-. rewrite X1 in X2. discriminate. }
    destruct (gb_eligible G p P) as (st & r & S & RK). apply T in S. destruct (last_returned (m_inactive m) p) as [st'|] eqn:LR.
    + right. clear - LR. induction (m_inactive m) as [|[q x] b IH] using rev_ind; [discriminate|].
      unfold last_returned in *. rewrite fold_left_app in LR. cbn [fold_left fst snd] in LR. rewrite map_app. apply in_or_app. destruct (addr_eqb q p) eqn:D; auto.
      apply addr_eqb_spec in D. subst q. right. left. reflexivity.
    + left. exists st. split; auto. intros ->. discriminate.
  - destruct (m_assign m f) as [[m' o']| |] eqn:H; try discriminate. injection E as <- <-. cbn [fst] in F.
    destruct (@assign_steady _ _ _ _ _ I H i Hi). contradiction.
  - destruct (q_step t o) as [[t' o']| |] eqn:H; try discriminate. injection E as <- <-. cbn [fst] in F. rewrite forgotten_same in F by apply (i_nodup I). congruence.
Qed.
(** In particular no later event repairs the count. *)
Theorem C30_never_repaired_always : forall hs s0 h1 s1 k1 h2 s2 k2 i, sys_start hs s0 -> losing_run i s0 h1 s1 k1 -> losing_run i s1 h2 s2 k2 -> i < length hs ->
  (nth i (m_freq (fst s1)) 0 - N.of_nat (holders (m_active (fst s1)) i) <= nth i (m_freq (fst s2)) 0 - N.of_nat (holders (m_active (fst s2)) i))%N.
Proof.
  intros hs s0 h1 s1 k1 h2 s2 k2 i A R1 R2 Hi. pose proof (C30_account A R1 Hi) as E1. assert (R : losing_run i s0 (h1 ++ h2) s2 (k1 + k2)).
  { clear - R1 R2. induction R1; auto. cbn [app]. rewrite <- Nat.add_assoc. econstructor; eauto. }
  rewrite (C30_account A R Hi), E1. lia.
Qed.
Lemma losing_cons : forall i s s1 e s2 out h s' k f, sys_perm s s1 -> sys_step s1 e = Val (s2, out) ->
  forgotten (m_active (fst s1)) (m_active (fst s2)) i = f -> f <= k -> losing_run i s2 h s' (k - f) -> losing_run i s ((e, out) :: h) s' k.
Proof. intros. subst. replace k with (forgotten (m_active (fst s1)) (m_active (fst s2)) i + (k - forgotten (m_active (fst s1)) (m_active (fst s2)) i)) by lia. econstructor; eauto. Qed.
(** Learning twice of an active peer that announced piece 0: one announcement lost. *)
Example C30_account_example : exists s0 h s, sys_start three s0 /\ losing_run 0 s0 h s 1 /\
  nth 0 (m_freq (fst s)) 0%N = 1%N /\ holders (m_active (fst s)) 0 = 0.
Proof.
  eexists. exists [(ETable (QInsert (pa 1)), []); (ERefresh, [OSpawn (pa 1)]); (EMsg (pa 1) (CHave 0), []); (ETable (QInsert (pa 1)), []); (ERefresh, [])]. eexists.
  split; [eexists; split; [vm_compute; reflexivity|reflexivity]|]. split.
  - do 5 (eapply losing_cons; [apply sys_perm_refl|vm_compute; reflexivity|vm_compute; reflexivity|lia|]; cbn [Nat.sub]). apply lr_nil.
  - split; vm_compute; reflexivity.
Qed.
Print Assumptions C30_account.
Print Assumptions C30_forgotten.
Print Assumptions C30_never_repaired_always.
