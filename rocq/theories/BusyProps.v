(** C32, C31: what is selected in any state, whatever the counts of workers per
    piece are (in the program as it stands they never leave zero). *)
From Coq Require Import List NArith ZArith Lia Bool Arith.
From Coq Require Import Init.Byte.
From Verif Require Import Base Assoc BitSpec BitmapModel BitmapProofs IdModel WireModel PeersModel ManagerModel ManagerSpec ManagerProofs ManagerProofs2.
Import ListNotations.

(** ** Vocabulary *)
(** All lists have an entry for every piece. *)
Definition full_size (m : mgr) : Prop :=
  bm_len (m_local m) <= length (bits (m_local m)) /\ length (m_freq m) = bm_len (m_local m) /\ length (m_assigned m) = bm_len (m_local m) /\
  length (m_hashes m) = bm_len (m_local m) /\ forall p inf, In (p, inf) (m_active m) -> bm_len (m_local m) <= length (bits (pi_haves inf)).
(** A missing piece that somebody has. *)
Definition missing (m : mgr) (i : nat) : Prop := i < bm_len (m_local m) /\ ~ piece_in (m_local m) i /\ exists n, nth_error (m_freq m) i = Some n /\ n <> 0%N.
(** [i] is the first missing piece of those that [c] peers work on. *)
Definition first_of (m : mgr) (c i : nat) : Prop :=
  missing m i /\ nth_error (m_assigned m) i = Some (N.of_nat c) /\ forall j, j < i -> missing m j -> nth_error (m_assigned m) j <> Some (N.of_nat c).
(** [p] can be asked for [i]; it works on [w] pieces. *)
Definition offers (m : mgr) (p : addr) (i : nat) (w : N) : Prop :=
  exists inf, In (p, inf) (m_active m) /\ pi_choking inf = false /\ piece_in (pi_haves inf) i /\ bm_weight (pi_working inf) = w.
(** Nobody with less than four pieces can be asked for it. *)
Definition hopeless (m : mgr) (i : nat) : Prop := forall p w, offers m p i w -> (4 <= w)%N.

(** ** Proofs *)
Lemma missing_wanted : forall m i, full_size m -> (missing m i <-> wanted m i).
Proof.
  intros m i (L & F & _). unfold missing, wanted, piece_in, fr. split.
  - intros (I & P & n & N1 & N2). split; [|split; [exact I|]].
    + destruct (nth_error (bits (m_local m)) i) as [[|]|] eqn:E; [destruct (P eq_refl)|reflexivity|]. apply nth_error_None in E. lia.
    + rewrite (nth_error_nth _ _ _ N1). lia.
  - intros (P & I & Z). split; [exact I|]. split; [congruence|]. exists (nth i (m_freq m) 0%N). split; [apply nth_error_nth'; lia|lia].
Qed.
Lemma remaining_order : forall bs f a k l1 i l2, remaining_from k bs f a = l1 ++ i :: l2 -> (forall j, In j l2 -> i < j).
Proof.
  assert (G : forall bs f a k j, In j (remaining_from k bs f a) -> k <= j).
  { intros bs f a k j H. apply remaining_in in H. lia. }
  induction bs as [|b bs IH]; intros f a k l1 i l2 H j J; cbn [remaining_from] in H; [destruct l1; discriminate|].
  destruct f as [|x f]; [destruct l1; discriminate|]. destruct a as [|y a]; [destruct l1; discriminate|].
  destruct (negb b && (0 <? x)%N); [|eapply IH; eauto]. destruct l1 as [|z l1]; cbn [app] in H; injection H as H1 H2; [|eapply IH; eauto].
  subst. specialize (G _ _ _ _ _ J). lia.
Qed.
Lemma remaining_full : forall m, full_size m -> exists rem, remaining m = Val rem /\ (forall i, In i rem <-> missing m i) /\
  forall l1 i l2, rem = l1 ++ i :: l2 -> forall j, In j l2 -> i < j.
Proof.
  intros m S. pose proof S as (L & F & A & _). unfold remaining. rewrite bm_bits_spec by (unfold bits in L; rewrite bits_of_length in L; auto). cbn [rmap]. eexists. split; [reflexivity|].
  fold (bits (m_local m)). set (n := bm_len (m_local m)) in *.
  assert (LF : length (firstn n (bits (m_local m))) = n) by (rewrite firstn_length; lia).
  assert (NE : forall i, i < n -> nth_error (firstn n (bits (m_local m))) i = nth_error (bits (m_local m)) i).
  { clear. generalize (bits (m_local m)). induction n; intros l i H; [lia|]. destruct l; [destruct i; auto|]. destruct i; cbn; auto. apply IHn. lia. }
  split.
  - intro i. rewrite (missing_wanted m i S). split.
    + intro H. apply remaining_in in H as (_ & B & C). rewrite Nat.sub_0_r in *.
      assert (I : i < n) by (assert (X : nth_error (firstn n (bits (m_local m))) i <> None) by congruence; apply nth_error_Some in X; lia).
      unfold wanted. rewrite NE in B by exact I. auto.
    + intros (B & I & C). apply remaining_complete; [congruence|congruence|lia|rewrite Nat.sub_0_r..]; [rewrite NE; auto|auto].
  - intros l1 i l2 H. apply (remaining_order _ _ _ _ _ _ _ H).
Qed.
Lemma first_with_spec : forall a c l, (forall j, In j l -> j < length a) -> exists r, first_with a c l = Val r /\
  match r with
  | Some i => exists l1 l2, l = l1 ++ i :: l2 /\ nth_error a i = Some (N.of_nat c) /\ forall j, In j l1 -> nth_error a j <> Some (N.of_nat c)
  | None => forall j, In j l -> nth_error a j <> Some (N.of_nat c)
  end.
Proof.
  induction l as [|x l IH]; intros B; cbn [first_with]; [exists None; split; [reflexivity|intros j []]|].
  destruct (nth_error a x) as [y|] eqn:E; [|apply nth_error_None in E; specialize (B x (or_introl eq_refl)); lia].
  destruct (N.eqb_spec y (N.of_nat c)) as [->|Y]; [exists (Some x); split; [reflexivity|]; exists [], l; split; [reflexivity|split; [exact E|intros j []]]|].
  destruct IH as (r & R & H); [intros j J; apply B; right; exact J|]. exists r. split; [exact R|]. destruct r as [i|].
  - destruct H as (l1 & l2 & -> & N1 & N2). exists (x :: l1), l2. split; [reflexivity|]. split; [exact N1|]. intros j [<-|J]; [congruence|auto].
  - intros j [<-|J]; [congruence|auto].
Qed.
Definition hit (m : mgr) (k : nat) (p : addr) (i : nat) : Prop := first_of m (k / 4) i /\ offers m p i (N.of_nat (k mod 4)).
Definition miss (m : mgr) (k : nat) : Prop := forall p i, ~ hit m k p i.
Lemma first_of_same : forall m c i j, first_of m c i -> first_of m c j -> i = j.
Proof.
  intros m c i j (A1 & A2 & A3) (B1 & B2 & B3). destruct (Nat.lt_trichotomy i j) as [H|[H|H]]; [destruct (B3 i H A1 A2)|exact H|destruct (A3 j H B1 B2)].
Qed.
Lemma sel_loop_spec : forall m rem, full_size m -> (forall i, In i rem <-> missing m i) -> (forall l1 i l2, rem = l1 ++ i :: l2 -> forall j, In j l2 -> i < j) ->
  forall ks, exists r, sel_loop m rem ks = Val r /\
    match r with Some (p, i) => exists l1 k l2, ks = l1 ++ k :: l2 /\ hit m k p i /\ forall k', In k' l1 -> miss m k' | None => forall k, In k ks -> miss m k end.
Proof.
  intros m rem S R O. pose proof S as (L & F & A & _ & W). induction ks as [|k ks IH]; cbn [sel_loop]; [exists None; split; [reflexivity|intros k []]|].
  change MAX_PIECE_PER_PEER with 4. destruct IH as (r & E & H).
  assert (M : miss m k -> match r with Some (p, i) => exists l1 k' l2, k :: ks = l1 ++ k' :: l2 /\ hit m k' p i /\ forall q, In q l1 -> miss m q | None => forall q, In q (k :: ks) -> miss m q end).
  { intro Hm. destruct r as [[p i]|].
    - destruct H as (l1 & k' & l2 & -> & H1 & H2). exists (k :: l1), k', l2. split; [reflexivity|]. split; [exact H1|]. intros q [<-|Q]; auto.
    - intros q [<-|Q]; auto. }
  destruct (first_with_spec (m_assigned m) (k / 4) rem) as (x & -> & X). { intros j J. apply R in J as [J _]. lia. } cbn [rbind]. destruct x as [i|].
  - destruct X as (l1 & l2 & RE & N1 & N2).
    assert (FO : first_of m (k / 4) i).
    { split; [apply R; rewrite RE; apply in_elt|]. split; [exact N1|]. intros j J Mj. apply R in Mj. rewrite RE in Mj. apply in_app_or in Mj as [Mj|[Mj|Mj]]; [auto|lia|]. specialize (O _ _ _ RE j Mj). lia. }
    destruct (@find_peer_spec i (k mod 4) (m_active m)) as (y & -> & Y). { intros p inf I. specialize (W p inf I). destruct FO as [[Hi _] _]. lia. } cbn [rbind]. destruct y as [p|].
    + exists (Some (p, i)). split; [reflexivity|]. exists [], k, ks. split; [reflexivity|]. split; [split; [exact FO|exact Y]|intros q []].
    + exists r. split; [exact E|]. apply M. intros p i' [F1 (inf & I1 & I2 & I3 & I4)]. rewrite <- (first_of_same _ _ _ _ FO F1) in I3. exact (Y p inf I1 I2 I3 I4).
  - exists r. split; [exact E|]. apply M. intros p i [(F1 & F2 & _) _]. apply R in F1. exact (X i F1 F2).
Qed.
Lemma seq_split_lt : forall n l1 k l2, seq 0 n = l1 ++ k :: l2 -> k < n /\ forall j, j < k -> In j l1.
Proof.
  intros n l1 k l2 H. assert (LL : length l1 < n) by (rewrite <- (seq_length n 0), H, app_length; cbn [length]; lia).
  assert (K : k = length l1).
  { assert (X : nth (length l1) (seq 0 n) 0 = k) by (rewrite H, app_nth2, Nat.sub_diag by lia; reflexivity). rewrite seq_nth in X by lia. lia. }
  split; [lia|]. intros j J. assert (X : nth j (seq 0 n) 0 = j) by (rewrite seq_nth by lia; lia). rewrite H, app_nth1 in X by lia. rewrite <- X. apply nth_In. lia.
Qed.

(** ** Theorems *)
(** The piece selected is the first of the missing ones that [c] peers work on; for any
    smaller [c] the first piece is hopeless; the peer is a least busy one of those
    that can be asked. *)
Theorem C32_selected : forall m p i h, full_size m -> select_piece m = Val (Some (p, i, h)) -> nth_error (m_hashes m) i = Some h /\
  exists c w, c < 3 /\ (w < 4)%N /\ first_of m c i /\ offers m p i w /\ (forall p' w', offers m p' i w' -> (w <= w')%N) /\
    forall c' i', c' < c -> first_of m c' i' -> hopeless m i'.
Proof.
  intros m p i h S H. unfold select_piece, sequential_select in H. destruct (remaining_full m S) as (rem & RE & R & O). rewrite RE in H. cbn [rbind] in H.
  destruct (sel_loop_spec m rem S R O (seq 0 (MAX_PEER_PER_PIECE * MAX_PIECE_PER_PEER))) as (r & E & X). rewrite E in H. cbn [rbind] in H. destruct r as [[p0 i0]|]; [|discriminate].
  destruct (nth_error (m_hashes m) i0) as [h0|] eqn:EH; [|discriminate]. injection H as <- <- <-. split; [exact EH|].
  destruct X as (l1 & k & l2 & K & [F Of] & Ms). change (MAX_PEER_PER_PIECE * MAX_PIECE_PER_PEER) with 12 in K. apply seq_split_lt in K as [K1 K2].
  assert (D : k = 4 * (k / 4) + k mod 4) by (apply Nat.div_mod; lia). assert (B : k mod 4 < 4) by (apply Nat.mod_upper_bound; lia).
  assert (Q : forall c w, w < 4 -> (4 * c + w) / 4 = c /\ (4 * c + w) mod 4 = w).
  { intros c w Hw. replace (4 * c + w) with (w + c * 4) by lia. rewrite Nat.div_add, Nat.mod_add, Nat.div_small, Nat.mod_small by lia. lia. }
  exists (k / 4), (N.of_nat (k mod 4)). split; [lia|]. split; [lia|]. split; [exact F|]. split; [exact Of|]. split.
  - intros p' w' Hw. destruct (N.le_gt_cases (N.of_nat (k mod 4)) w') as [|G]; [assumption|exfalso].
    destruct (Q (k / 4) (N.to_nat w') ltac:(lia)) as [Q1 Q2]. assert (J : 4 * (k / 4) + N.to_nat w' < k) by lia. apply (Ms _ (K2 _ J) p' i0). split; [rewrite Q1; exact F|rewrite Q2, N2Nat.id; exact Hw].
  - intros c' i' Hc F' p' w' Hw. destruct (N.le_gt_cases 4 w') as [|G]; [assumption|exfalso].
    destruct (Q c' (N.to_nat w') ltac:(lia)) as [Q1 Q2]. assert (J : 4 * c' + N.to_nat w' < k) by lia. apply (Ms _ (K2 _ J) p' i'). split; [rewrite Q1; exact F'|rewrite Q2, N2Nat.id; exact Hw].
Qed.
(** Nothing is selected exactly if those first pieces are all hopeless; otherwise
    something is. *)
Theorem C32_none_selected : forall m, full_size m ->
  (select_piece m = Val None <-> forall c i, c < 3 -> first_of m c i -> hopeless m i) /\
  exists r, select_piece m = Val r.
Proof.
  intros m S. pose proof S as (_ & _ & _ & LH & _). unfold select_piece, sequential_select. destruct (remaining_full m S) as (rem & RE & R & O). rewrite RE. cbn [rbind].
  destruct (sel_loop_spec m rem S R O (seq 0 (MAX_PEER_PER_PIECE * MAX_PIECE_PER_PEER))) as (r & E & X). rewrite E. cbn [rbind]. change (MAX_PEER_PER_PIECE * MAX_PIECE_PER_PEER) with 12 in X.
  assert (Q : forall c w, w < 4 -> (4 * c + w) / 4 = c /\ (4 * c + w) mod 4 = w).
  { intros c w Hw. replace (4 * c + w) with (w + c * 4) by lia. rewrite Nat.div_add, Nat.mod_add, Nat.div_small, Nat.mod_small by lia. lia. }
  destruct r as [[p i]|].
  - destruct X as (l1 & k & l2 & K & [F Of] & _). apply seq_split_lt in K as [K1 _]. pose proof F as [[Hi _] _].
    destruct (nth_error (m_hashes m) i) as [h|] eqn:EH; [|apply nth_error_None in EH; lia]. split; [|eauto]. split; [discriminate|].
    intro H. exfalso. assert (B : k mod 4 < 4) by (apply Nat.mod_upper_bound; lia). specialize (H (k / 4) i ltac:(apply Nat.div_lt_upper_bound; lia) F p _ Of). lia.
  - split; [|eauto]. split; [|reflexivity]. intros _ c i Hc F p w Hw. destruct (N.le_gt_cases 4 w) as [|G]; [assumption|exfalso].
    destruct (Q c (N.to_nat w) ltac:(lia)) as [Q1 Q2]. apply (X (4 * c + N.to_nat w)) with (p := p) (i := i); [apply in_seq; lia|]. split; [rewrite Q1; exact F|rewrite Q2, N2Nat.id; exact Hw].
Qed.
(** One peer has both pieces; somebody works on the first already: the second is
    selected. *)
Example C32_selected_example : exists b p h0 h1, let m := mk_mgr [(p, mk_pinfo false false (mk_bitmap [xc0] 2) b)] [] b b [1; 1]%N [1; 0]%N [h0; h1] [] in
  bm_new 2 = Val b /\ full_size m /\ select_piece m = Val (Some (p, 1, h1)) /\ first_of m 1 0.
Proof.
  eexists. exists (mk_addr x01 x02 x03 x04 5), (repeat x01 20), (repeat x02 20). cbn zeta. split; [vm_compute; reflexivity|]. split; [|split].
  - unfold full_size. cbn. split; [lia|]. split; [reflexivity|]. split; [reflexivity|]. split; [reflexivity|]. intros q inf [H|[]]. injection H as _ <-. cbn. lia.
  - vm_compute. reflexivity.
  - split; [|split; [reflexivity|intros j H; lia]]. split; [cbn; lia|]. split; [unfold piece_in; vm_compute; discriminate|]. exists 1%N. split; [reflexivity|discriminate].
Qed.
Print Assumptions C32_selected.
Print Assumptions C32_none_selected.
