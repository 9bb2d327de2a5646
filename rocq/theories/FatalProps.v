(** C33 continued: exactly which messages abort the torrent manager. *)
From Coq Require Import List NArith ZArith Lia Bool Arith.
From Coq Require Import Init.Byte.
From Verif Require Import Base Assoc BitSpec BitmapModel BitmapProofs IdModel WireModel PeersModel PeersSpec PeersProofs PeersProps ManagerModel ManagerSpec ManagerProofs ManagerProofs2 ManagerProps.
Import ListNotations.
Set Implicit Arguments.

(** What a message [c] from the peer [p] must be like to abort the manager of
    a torrent of [n] pieces: a request, a cancellation, a finished piece; a
    have for a bit that is not there, or for one that was clear and has no
    count or a full one; a first bitfield naming a piece with a full count. *)
Definition fatal (n : nat) (m : mgr) (p : addr) (c : con_message) : Prop :=
  match c with
  | CRequest _ | CFinishedPiece _ _ | CCancel _ => True
  | CHave i => exists inf, In (p, inf) (m_active m) /\
      (8 * ((n + 7) / 8) <= N.to_nat i \/
       ~ piece_in (pi_haves inf) (N.to_nat i) /\ (n <= N.to_nat i \/ (65535 <= nth (N.to_nat i) (m_freq m) 0)%N))
  | CBitfield d => exists inf, In (p, inf) (m_active m) /\ (forall j, ~ piece_in (pi_haves inf) j) /\ length d = (n + 7) / 8 /\
      exists j, j < n /\ piece_in (mk_bitmap d n) j /\ (65535 <= nth j (m_freq m) 0)%N
  | _ => False
  end.
Lemma freq_add_panic : forall hs f i, i + length hs <= length f ->
  (freq_add f i hs = Panic <-> exists j, i <= j /\ hb hs (j - i) = true /\ (65535 <= fr f j)%N) /\ freq_add f i hs <> Fail.
Proof.
  induction hs as [|h hs IH]; intros f i L; cbn [freq_add length] in *.
  - split; [|discriminate]. split; [discriminate|]. intros (j & _ & H & _). unfold hb in H. destruct (j - i); discriminate.
  - destruct h.
    + destruct (N.lt_ge_cases (fr f i) 65535) as [B|B].
      * destruct (@freq_inc_total f i ltac:(lia) B) as [f1 E]. rewrite E. cbn [rbind]. apply freq_inc_val in E as (_ & L1 & _ & F1).
        destruct (IH f1 (S i) ltac:(lia)) as [H1 H2]. split; auto. rewrite H1. split; intros (j & J1 & J2 & J3).
        -- exists j. split; [lia|]. rewrite F1 in J3. destruct (Nat.eqb_spec j i); [lia|]. split; [|lia].
           unfold hb in *. replace (j - i) with (S (j - S i)) by lia. exact J2.
        -- destruct (Nat.eq_dec j i) as [->|NE]; [lia|]. exists j. split; [lia|]. rewrite F1. destruct (Nat.eqb_spec j i); [lia|].
           unfold hb in *. replace (j - i) with (S (j - S i)) in J2 by lia. cbn [nth] in J2. split; auto. lia.
      * assert (E : freq_inc f i = Panic).
        { destruct (freq_inc f i) as [f1| |] eqn:E; auto; [apply freq_inc_val in E; lia|].
          unfold freq_inc in E. destruct (nth_error f i); [|discriminate]. destruct (_ <? _)%N; discriminate. }
        rewrite E. cbn [rbind]. split; [|discriminate]. split; auto. intros _. exists i. split; auto. rewrite Nat.sub_diag. split; auto.
    + destruct (IH f (S i) ltac:(lia)) as [H1 H2]. split; auto. rewrite H1. split; intros (j & J1 & J2 & J3).
      * exists j. split; [lia|]. split; auto. unfold hb in *. replace (j - i) with (S (j - S i)) by lia. exact J2.
      * destruct (Nat.eq_dec j i) as [->|NE]; [rewrite Nat.sub_diag in J2; discriminate|]. exists j. split; [lia|]. split; auto.
        unfold hb in *. replace (j - i) with (S (j - S i)) in J2 by lia. exact J2.
Qed.
Lemma weight_pos : forall b, (0 < bm_weight b)%N -> exists j, piece_in b j.
Proof.
  intros b H. pose proof (bm_weight_spec b) as E. unfold count_true in E.
  assert (In true (bits b)) by (apply (count_occ_In bool_dec); lia). apply In_nth_error in H0 as [j J]. exists j. exact J.
Qed.
Lemma fatal_exact : forall n m p c, inv n m ->
  (handle_message m p c = Panic <-> fatal n m p c) /\ (~ fatal n m p c -> exists m', handle_message m p c = Val m').
Proof.
  intros n m p c I.
  assert (G : (handle_message m p c = Panic <-> fatal n m p c) /\ handle_message m p c <> Fail).
  2:{ destruct G as [G1 G2]. split; auto. intro NF. destruct (handle_message m p c) as [m'| |]; [eauto|congruence|]. exfalso. apply NF, G1. reflexivity. }
  assert (SHUT : forall st, mark_inactive m p st <> Panic /\ mark_inactive m p st <> Fail).
  { intro st. destruct (@inactive_spec _ _ p st I) as (m' & E & _). rewrite E. split; discriminate. }
  destruct c; cbn [handle_message fatal]; try (split; [|discriminate]; split; [discriminate|tauto]).
  all: try (split; [split; auto|discriminate]; fail).
  - split; [|apply SHUT]. split; [|tauto]. intro E. apply SHUT in E. exact E.
  - split; [|apply SHUT]. split; [|tauto]. intro E. apply SHUT in E. exact E.
  - unfold handle_have. destruct (aget p (m_active m)) as [o|] eqn:GA.
    2:{ split; [|discriminate]. split; [discriminate|]. intros (inf & IN & _). apply aget_none in GA. exfalso. apply GA, in_map_iff. exists (p, inf). auto. }
    assert (IN : In (p, o) (m_active m)) by (apply aget_spec; auto; apply (i_nodup I)). destruct (i_info I _ _ IN) as [O1 _].
    assert (UN : forall inf, In (p, inf) (m_active m) -> inf = o).
    { intros inf X. apply (proj2 (@aget_spec p _ inf (i_nodup I))) in X. congruence. }
    destruct (Nat.lt_ge_cases (N.to_nat i) (length (bits (pi_haves o)))) as [L|L].
    + destruct (@bm_change_some (pi_haves o) (N.to_nat i) true L) as (b' & old & E & _). rewrite E. cbn [rbind fst snd].
      destruct (@inb_change _ _ _ _ _ E) as (O & _ & _). rewrite (bo_st O1) in L. destruct old.
      * split; [|discriminate]. split; [discriminate|]. intros (inf & X & Y). apply UN in X as ->. symmetry in O. apply inb_in in O. destruct Y as [Y|[Y _]]; [lia|tauto].
      * assert (NP : ~ piece_in (pi_haves o) (N.to_nat i)) by (rewrite <- inb_in; congruence).
        assert (FI : (freq_inc (m_freq m) (N.to_nat i) = Panic <-> n <= N.to_nat i \/ (65535 <= nth (N.to_nat i) (m_freq m) 0)%N) /\ freq_inc (m_freq m) (N.to_nat i) <> Fail).
        { unfold freq_inc. destruct (nth_error (m_freq m) (N.to_nat i)) as [x|] eqn:EX.
          - rewrite (nth_error_nth _ _ _ EX). assert (N.to_nat i < length (m_freq m)) by (apply nth_error_Some; congruence). rewrite (i_freq I) in *.
            destruct (N.ltb_spec (x + 1) 65536); (split; [split; intro; try discriminate; try lia; auto|discriminate]); right; lia.
          - apply nth_error_None in EX. rewrite (i_freq I) in EX. split; [|discriminate]. tauto. }
        destruct FI as [F1 F2]. split; [|destruct (freq_inc _ _); cbn [rmap]; congruence].
        transitivity (freq_inc (m_freq m) (N.to_nat i) = Panic). { destruct (freq_inc _ _); cbn [rmap]; split; congruence. }
        rewrite F1. split; [intro X; exists o; auto|]. intros (inf & X & Y). apply UN in X as ->. destruct Y as [Y|[_ Y]]; [lia|exact Y].
    + rewrite bm_change_none by auto. cbn [rbind]. split; [|discriminate]. split; auto. intros _. exists o. split; auto. left. rewrite (bo_st O1) in L. auto.
  - unfold accept_bitfield. match goal with |- context [bm_replace_data _ ?x] => rename x into d end. destruct (aget p (m_active m)) as [o|] eqn:GA.
    2:{ split; [|discriminate]. split; [discriminate|]. intros (inf & IN & _). apply aget_none in GA. exfalso. apply GA, in_map_iff. exists (p, inf). auto. }
    assert (IN : In (p, o) (m_active m)) by (apply aget_spec; auto; apply (i_nodup I)). destruct (i_info I _ _ IN) as [O1 _].
    assert (UN : forall inf, In (p, inf) (m_active m) -> inf = o).
    { intros inf X. apply (proj2 (@aget_spec p _ inf (i_nodup I))) in X. congruence. }
    destruct (N.ltb_spec 0 (bm_weight (pi_haves o))) as [W|W].
    { split; [|discriminate]. split; [discriminate|]. intros (inf & X & Y & _). apply UN in X as ->. apply weight_pos in W as [j J]. exfalso. eapply Y; eauto. }
    assert (Z : forall j, ~ piece_in (pi_haves o) j). { intros j J. apply inb_in in J. rewrite weight_zero in J by lia. discriminate. }
    assert (LD : length (bm_data (pi_haves o)) = (n + 7) / 8).
    { pose proof (bo_st O1) as X. unfold bits in X. rewrite bits_of_length in X. lia. }
    rewrite bm_replace_spec, LD, (bo_len O1). destruct (Nat.eqb_spec (length d) ((n + 7) / 8)) as [LN|LN].
    2:{ split; [|discriminate]. split; [discriminate|]. intros (inf & _ & _ & X & _). contradiction. }
    assert (O3 : bm_ok n (mk_bitmap d n)).
    { apply (@ok_replace _ (pi_haves o) d); auto. rewrite bm_replace_spec, LD, (bo_len O1), LN, Nat.eqb_refl. reflexivity. }
    rewrite (bm_ok_bits O3). cbn [rbind].
    destruct (@freq_add_panic (firstn n (bits (mk_bitmap d n))) (m_freq m) 0) as [F1 F2].
    { rewrite firstn_length, (i_freq I). lia. }
    split; [|destruct (freq_add _ _ _); cbn [rbind]; congruence].
    transitivity (freq_add (m_freq m) 0 (firstn n (bits (mk_bitmap d n))) = Panic). { destruct (freq_add _ _ _); cbn [rbind]; split; congruence. }
    rewrite F1. split.
    + intros (j & _ & J & K). rewrite Nat.sub_0_r, bm_ok_hb in J. apply andb_true_iff in J as [J1 J2]. apply Nat.ltb_lt in J1. apply inb_in in J2.
      exists o. split; auto. split; auto. split; auto. exists j. auto.
    + intros (inf & _ & _ & _ & j & J1 & J2 & J3). exists j. split; [lia|]. rewrite Nat.sub_0_r, bm_ok_hb. split; auto.
      apply andb_true_iff. split; [apply Nat.ltb_lt; auto|apply inb_in; auto].
Qed.
Theorem C33_exact : forall hs s p c, sys_reach hs s ->
  (handle_message (fst s) p c = Panic <-> fatal (length hs) (fst s) p c) /\
  (~ fatal (length hs) (fst s) p c -> exists m, handle_message (fst s) p c = Val m).
Proof. intros hs s p c R. apply fatal_exact, (reach_inv_m R). Qed.
(** A have for the fourth of three pieces, one for the third, and a bitfield:
    only the first aborts. *)
Example C33_exact_example : exists s, sys_reach three s /\ fatal 3 (fst s) (pa 1) (CHave 3) /\
  ~ fatal 3 (fst s) (pa 2) (CHave 2) /\ ~ fatal 3 (fst s) (pa 1) (CBitfield [xff]).
Proof.
  assert (X : exists s, sys_reach three s /\ handle_message (fst s) (pa 1) (CHave 3) = Panic /\
    handle_message (fst s) (pa 2) (CHave 2) <> Panic /\ handle_message (fst s) (pa 1) (CBitfield [xff]) <> Panic).
  { eexists. split.
    - eexists. exists ex_history. split; [eexists; split; [vm_compute; reflexivity|reflexivity]|]. do 5 go. apply sr_nil.
    - vm_compute. repeat split; discriminate. }
  destruct X as (s & R & A & B & C). exists s. split; auto.
  pose proof (fun p c => proj1 (@C33_exact three s p c R)) as E. change (length three) with 3 in E.
  split; [apply E; auto|]. split; rewrite <- E; auto.
Qed.
Print Assumptions C33_exact.
