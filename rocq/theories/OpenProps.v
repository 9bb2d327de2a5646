(** C141: the pieces blocks are collected for are those the manager counts as active. *)
From Coq Require Import List NArith ZArith Lia Bool Arith.
From Coq Require Import Init.Byte.
From Verif Require Import Base Assoc BitSpec BitmapModel BitmapProofs IdModel WireModel PeersModel PeersSpec PeersProofs PeersProps ManagerModel ManagerSpec ManagerProofs ManagerProofs2 ManagerProps PendingModel PendingSpec PendingProofs ConnModel ConnSpec ConnProps ClientModel TorrentModel TorrentSpec TorrentProps.
Import ListNotations.

(** ** Vocabulary *)
(** Blocks of piece [i] are being collected. *)
Definition collected (s : tor) (i : nat) : Prop := In i (map fst (pp_data (c_pp (r_con s)))).

(** ** Proofs *)
Lemma set_bits_length : forall bs k, length (filter (fun i => nth (i - k) bs false) (seq k (length bs))) = count_true bs.
Proof.
  induction bs as [|b bs IH]; intro k; [reflexivity|]. cbn [length seq filter]. rewrite Nat.sub_diag. change (nth 0 (b :: bs) false) with b.
  assert (E : filter (fun i => nth (i - k) (b :: bs) false) (seq (S k) (length bs)) = filter (fun i => nth (i - S k) bs false) (seq (S k) (length bs))).
  { apply filter_ext_in. intros i I. apply in_seq in I. replace (i - k) with (S (i - S k)) by lia. reflexivity. }
  rewrite E. specialize (IH (S k)). destruct b; cbn [length count_true]; rewrite IH; reflexivity.
Qed.
Lemma set_bits_room : forall bs l, NoDup l -> (forall i, In i l -> nth_error bs i = Some true) -> length l <= count_true bs.
Proof.
  intros bs l N H. rewrite <- (set_bits_length bs 0). apply NoDup_incl_length; [exact N|]. intros i I. specialize (H i I). apply filter_In. rewrite Nat.sub_0_r. split.
  - apply in_seq. split; [lia|]. cbn. apply nth_error_Some. congruence.
  - apply nth_error_nth with (d := false) in H. exact H.
Qed.
Lemma pmget_set : forall k j v m, pmget j (pmset k v m) = if j =? k then Some v else pmget j m.
Proof. intros. destruct (Nat.eqb_spec j k) as [->|E]; [apply (mget_mset_same _ neqb_spec)|apply (mget_mset_other _ neqb_spec); exact E]. Qed.
Section Open.
Variable sha1 : bytes -> ID.
Variable checked : bool.
Notation cstep := (con_step sha1 checked).
Notation step := (tor_step sha1 checked).
Notation run := (tor_run sha1 checked).

Lemma con_pp : forall c e c' o, quiet c -> cstep c e = Some (c', o) -> e <> AddPiece -> c_pp c' = c_pp c.
Proof.
  intros c e c' o [O W U T] H NA. destruct e as [p|p|p b|p i h| |p m|t b|t|t oc now|t]; cbn [con_step] in H; try congruence.
  - destruct (c_main c); try discriminate. destruct (omget p (c_map c)); injection H as <- <-; reflexivity.
  - destruct (c_main c); try discriminate. destruct (omget p (c_map c)) as [t|]; [|injection H as <- <-; reflexivity]. destruct (nth_error (c_tasks c) t); [|discriminate]. injection H as <- <-. reflexivity.
  - destruct (c_main c); try discriminate. destruct (omget p (c_map c)) as [t|]; [|injection H as <- <-; reflexivity]. destruct (nth_error (c_tasks c) t); [|discriminate]. injection H as <- <-. reflexivity.
  - destruct (c_main c); try discriminate. destruct (omget p (c_map c)) as [t|]; [|injection H as <- <-; reflexivity]. destruct (nth_error (c_tasks c) t) as [x|]; [|discriminate].
    destruct (t_dl x); [|injection H as <- <-; reflexivity]. destruct (_ <=? _); [discriminate|]. injection H as <- <-. reflexivity.
  - destruct (c_main c); try discriminate. destruct (negb _); [discriminate|]. destruct (omget p (c_map c)) as [t|]; [|injection H as <- <-; reflexivity]. destruct (nth_error (c_tasks c) t); [|discriminate]. injection H as <- <-. reflexivity.
  - destruct (nth_error (c_tasks c) t) as [x|]; [|discriminate]. destruct (_ && _); [|discriminate]. injection H as <- <-. reflexivity.
  - destruct (nth_error (c_tasks c) t) as [x|]; [|discriminate]. injection H as <- <-. reflexivity.
  - destruct (nth_error (c_tasks c) t) as [x|] eqn:N; [|discriminate]. destruct (t_dl x) as [d|] eqn:D; [|discriminate]. pose proof (T _ _ (nth_error_In _ _ N) D) as B0.
    assert (K : forall y e, Some (after_turn c t y (dl_turn sha1 checked (c_poisoned c) now (c_pp c) d e)) = Some (c', o) -> c_pp c' = c_pp c).
    { intros y e H2. pose proof (@turn_quiet sha1 checked (c_poisoned c) now (c_pp c) d e O B0) as Q. destruct (dl_turn _ _ _ _ _ _ _) as [q' d' fin reqs|po]; cbn [after_turn] in H2; injection H2 as <- _; [|reflexivity]. destruct Q as (-> & _). reflexivity. }
    destruct oc; [destruct (t_cmds x) as [|w cs]|destruct (t_blocks x) as [|b bs]]; try discriminate; eapply K; exact H.
  - destruct (nth_error (c_tasks c) t) as [x|]; [|discriminate]. destruct (t_dl x); [|discriminate]. destruct (_ || _); [|discriminate]. injection H as <- <-. reflexivity.
Qed.
Lemma con_add : forall c i c' o, quiet c -> cstep c AddPiece = Some (c', o) -> c_main c = MAdd i -> n_in_flight (c_pp c) < 10 ->
  (c_main c' = MIdle -> forall j, in_flight (c_pp c') j <-> j = i \/ in_flight (c_pp c) j) /\ (c_main c' <> MIdle -> c_pp c' = c_pp c).
Proof.
  intros c i c' o [O W U T] H M L. cbn [con_step] in H. rewrite M in H. destruct (c_poisoned c); [injection H as <- <-; split; [discriminate|reflexivity]|].
  destruct (in_dec Nat.eq_dec i (map fst (pp_data (c_pp c)))) as [J|J].
  - rewrite add_piece_known in H by exact J. injection H as <- <-. split; [|intro X; destruct (X eq_refl)]. intros _ j. cbn [c_pp]. split; [auto|intros [->|X]; auto].
  - rewrite add_piece_new in H by auto. injection H as <- <-. split; [|intro X; destruct (X eq_refl)]. intros _ j. cbn [c_pp]. unfold in_flight. cbn [pp_with pp_data].
    split; intro X.
    + apply pmget_keys in X as (q & X). rewrite pmget_set in X. destruct (Nat.eqb_spec j i); [auto|]. right. apply pmget_keys. exists q. exact X.
    + apply pmget_keys. rewrite pmget_set. destruct (Nat.eqb_spec j i); [eauto|]. destruct X as [X|X]; [contradiction|]. apply pmget_keys in X. exact X.
Qed.
Lemma connects_pp : forall os c k, quiet c -> connects sha1 checked c os = Some k -> c_pp k = c_pp c.
Proof.
  induction os as [|[p|p h i] os IH]; intros c k Q H; cbn [connects] in H; [injection H as <-; reflexivity| |auto].
  destruct (cstep c (Connect p)) as [[c1 o1]|] eqn:S; [|discriminate]. destruct (@step_quiet sha1 checked _ _ _ _ Q S) as (Q1 & _). rewrite (IH _ _ Q1 H). eapply con_pp; [exact Q|exact S|discriminate].
Qed.
Lemma received_pp : forall c p m k, quiet c -> received sha1 checked c p m = Some k -> c_pp k = c_pp c.
Proof.
  intros c p m k Q R. destruct m; cbn [received] in R; try (injection R as <-; auto; fail);
    match type of R with option_map _ (cstep _ ?e) = _ => destruct (cstep c e) as [[k1 o1]|] eqn:S; [|discriminate] end; cbn [option_map fst] in R; injection R as <-;
    (eapply con_pp; [exact Q|exact S|discriminate]).
Qed.

Definition matched (s : tor) : Prop :=
  match r_mgr s with Some m => forall i, in_flight (c_pp (r_con s)) i <-> piece_in (m_pieces m) i | None => n_in_flight (c_pp (r_con s)) <= 9 end.
Lemma matched_room : forall n s, tinv n s -> matched s -> n_in_flight (c_pp (r_con s)) <= 9.
Proof.
  intros n s [Q _ _ _ V] M. unfold matched in M. destruct (r_mgr s) as [m|]; [|exact M]. destruct V as (I & _). pose proof (i_weight I) as W. pose proof (bm_weight_spec (m_pieces m)) as B.
  assert (L : length (map fst (pp_data (c_pp (r_con s)))) <= count_true (bits (m_pieces m))).
  { apply set_bits_room; [destruct (q_wf Q) as (_ & _ & X & _); exact X|]. intros i J. apply M. exact J. }
  rewrite map_length in L. unfold n_in_flight. lia.
Qed.
Lemma dead_matched : forall n s s0 k, tinv n s -> matched s -> c_pp k = c_pp (r_con s) -> matched (tor_dead s0 k).
Proof. intros n s s0 k I M E. unfold matched. cbn [tor_dead r_mgr r_con con_dropped c_pp]. rewrite E. eapply matched_room; eauto. Qed.
Lemma take_matched : forall n s s0 m p c s' o, tinv n s -> matched s -> r_con s0 = r_con s -> r_mgr s = Some m -> take sha1 checked s0 m p c = Some (s', o) -> matched s'.
Proof.
  intros n s s0 m p c s' o I M E0 EM H. unfold take in H. rewrite E0 in H. destruct (received sha1 checked (r_con s) p c) as [k|] eqn:R; [|discriminate]. apply received_pp in R; [|exact (v_quiet I)].
  destruct (handle_message m p c) as [m'| |] eqn:HM; injection H as <- <-; [|eapply dead_matched; eauto..]. unfold matched in *. rewrite EM in M. cbn [r_mgr r_con]. rewrite R, (proj2 (message_local _ _ _ HM)). exact M.
Qed.
Lemma step_matched : forall n s e s' o, tinv n s -> matched s -> step s e = Some (s', o) -> matched s'.
Proof.
  intros n s e s' o I M H. pose proof I as [Q MP F T V]. destruct e as [q|p w|p| | | | |e|ks ks']; cbn [tor_step] in H.
  - destruct (q_step (r_tab s) q); try discriminate. injection H as <- <-. exact M.
  - destruct (r_mgr s) as [m|] eqn:E; [|discriminate]. destruct (r_phase s); try discriminate. destruct (con_of_message w); try discriminate. eapply take_matched; eauto.
  - destruct (r_mgr s) as [m|] eqn:E; [|discriminate]. destruct (r_phase s); try discriminate. eapply take_matched; eauto.
  - destruct (r_mgr s) as [m|] eqn:E; [|discriminate]. destruct (r_phase s); try discriminate. rewrite F in H. discriminate.
  - destruct (r_mgr s) as [m|] eqn:E; [|discriminate]. destruct (r_phase s); try discriminate. destruct V as (IM & _). destruct (@refresh_spec n m (r_tab s) IM T) as (m1 & t1 & os & R & I1 & N1 & P1 & _). rewrite R in H.
    destruct (connects sha1 checked (r_con s) os) as [k|] eqn:K; [|discriminate]. apply connects_pp in K; [|exact Q]. destruct (_ <? _); injection H as <- <-; [eapply dead_matched; eauto|].
    unfold matched in *. rewrite E in M. cbn [r_mgr r_con]. rewrite K. assert (PE : m_pieces m1 = m_pieces m).
    { clear - R. unfold m_refresh in R. destruct (_ <? _); [discriminate|]. destruct (_ =? 0); [injection R as <- _ _; auto|]. destruct (q_batch _ _ _) as [[t2 ps]| |]; try discriminate. cbn [rbind fst snd] in R.
      destruct (add_peers _ ps) as [[m2 o2]| |] eqn:A; try discriminate. cbn [rmap fst snd] in R. injection R as <- _ _. assert (G : forall ps m m' o, add_peers m ps = Val (m', o) -> m_pieces m' = m_pieces m).
      { clear. induction ps as [|p ps IH]; intros m m' o H; cbn [add_peers] in H; [injection H as <- _; auto|]. destruct (pi_new _) as [i| |]; try discriminate. cbn [rbind] in H.
        destruct (add_peers _ ps) as [[m1 o1]| |] eqn:A; try discriminate. cbn [rmap fst snd] in H. injection H as <- _. apply IH in A. rewrite A. reflexivity. }
      apply G in A. rewrite A. reflexivity. }
    rewrite PE. exact M.
  - destruct (r_mgr s) as [m|] eqn:E; [|discriminate]. assert (M0 : forall i, in_flight (c_pp (r_con s)) i <-> piece_in (m_pieces m) i) by (unfold matched in M; rewrite E in M; exact M).
    destruct (r_phase s) as [|[|k]|]; try discriminate; [injection H as <- <-; exact M0|]. destruct (select_piece m) as [[[[p i] h]|]| |]; [|injection H as <- <-; first [exact M0|eapply dead_matched; eauto]..].
    destruct (cstep (r_con s) (Download p i h)) as [[c1 o1]|] eqn:S; [|discriminate]. injection H as <- <-. unfold matched. cbn [r_mgr r_con]. rewrite (con_pp _ _ _ _ Q S ltac:(discriminate)). exact M0.
  - destruct (r_mgr s) as [m|] eqn:E; [|discriminate]. destruct (r_phase s) as [| |k p i] eqn:PH; try discriminate. destruct V as (IM & L & D & WK & IA & IN). destruct (cstep (r_con s) AddPiece) as [[c1 o1]|] eqn:S; [|discriminate].
    pose proof (matched_room _ _ I M) as RM. destruct (con_add _ _ _ _ Q S D ltac:(lia)) as (A1 & A2). assert (W8 : (bm_weight (m_pieces m) <= 8)%N) by (unfold weight in WK; lia).
    destruct (@mark_spec n m p i IM IA IN W8) as (m1 & E1 & I1 & _ & _ & _ & _ & _ & _ & _ & PI). rewrite E1 in H. destruct (c_main c1) eqn:MC; injection H as <- <-; [|eapply dead_matched; [exact I|exact M|apply A2; discriminate]..].
    unfold matched in *. rewrite E in M. cbn [r_mgr r_con]. intro j. rewrite (A1 eq_refl j), PI, M. reflexivity.
  - destruct (task_event e) eqn:TE; [|discriminate]. destruct (cstep (r_con s) e) as [[c1 o1]|] eqn:S; [|discriminate]. injection H as <- <-. unfold matched in *. cbn [r_mgr r_con]. rewrite (con_pp _ _ _ _ Q S); [exact M|intros ->; discriminate].
  - injection H as <- <-. unfold matched in *. cbn [r_mgr r_con]. destruct (r_mgr s) as [m|]; exact M.
Qed.
Lemma reach_matched : forall hs s, tor_reach sha1 checked hs s -> tinv (length hs) s /\ matched s.
Proof.
  intros hs s (pl & s0 & es & tr & N & R). assert (I0 : tinv (length hs) s0) by (eapply start_tinv; eauto). assert (M0 : matched s0).
  { unfold tor_new in N. destruct (m_init hs) as [mi| |] eqn:MI; try discriminate. cbn [rbind] in N. unfold con_new, pp_new in N. destruct (unsigned_ceil_div _ _); try discriminate. cbn [rbind rmap] in N. injection N as <-.
    unfold matched. cbn [r_mgr r_con c_pp]. intro i. unfold m_init in MI. destruct (bm_new (length hs)) as [b| |] eqn:B; try discriminate. cbn [rbind] in MI. injection MI as <-. cbn [m_pieces]. apply bm_ok_new in B as (_ & B & _).
    unfold piece_in. rewrite B. split; [intros []|]. intro X. apply nth_error_In, repeat_spec in X. discriminate. }
  clear N. revert s0 tr I0 M0 R. induction es as [|e es IH]; intros s0 tr I0 M0 R; cbn [tor_run] in R; [injection R as <- <-; auto|].
  destruct (step s0 e) as [[s1 o]|] eqn:S; [|discriminate]. destruct (run s1 es) as [[s2 t2]|] eqn:R2; [|discriminate]. cbn [option_map fst snd] in R. injection R as <- <-.
  eapply IH; [|eapply step_matched; eauto|exact R2]. destruct (@step_spec sha1 checked _ _ _ _ _ I0 S) as (X & _). exact X.
Qed.

(** ** Theorems *)
(** Blocks are collected for exactly the pieces the manager counts as active. *)
Theorem C141_same : forall hs s m i, tor_reach sha1 checked hs s -> r_mgr s = Some m -> (collected s i <-> piece_in (m_pieces m) i).
Proof. intros hs s m i RE E. destruct (reach_matched _ _ RE) as (_ & M). unfold matched in M. rewrite E in M. apply M. Qed.
(** They are at most nine, also after the manager's end, and pieces of the torrent. *)
Theorem C141_room : forall hs s, tor_reach sha1 checked hs s -> length (pp_data (c_pp (r_con s))) <= 9 /\ NoDup (map fst (pp_data (c_pp (r_con s)))).
Proof. intros hs s RE. destruct (reach_matched _ _ RE) as (I & M). split; [exact (matched_room _ _ I M)|]. destruct (q_wf (v_quiet I)) as (_ & _ & X & _). exact X. Qed.
(** So a piece handed out is collected: there is always room for it. *)
Theorem C141_added : forall hs s k p i s' o, tor_reach sha1 checked hs s -> r_phase s = Adding k p i -> step s RAdd = Some (s', o) -> r_mgr s' <> None ->
  collected s' i /\ forall j, collected s' j <-> j = i \/ collected s j.
Proof.
  intros hs s k p i s' o RE PH S N. destruct (reach_matched _ _ RE) as (I & M). pose proof (matched_room _ _ I M) as RM. cbn [tor_step] in S. destruct (r_mgr s) as [m|] eqn:E; [|discriminate]. rewrite PH in S.
  pose proof (v_mgr I) as V. rewrite E, PH in V. destruct V as (_ & _ & D & _). destruct (cstep (r_con s) AddPiece) as [[c1 o1]|] eqn:CS; [|discriminate]. destruct (con_add _ _ _ _ (v_quiet I) CS D ltac:(lia)) as (A & _).
  destruct (c_main c1) eqn:MC; [|injection S as <- <-; destruct (N eq_refl)..]. destruct (mark_ongoing m p i); injection S as <- <-; [|destruct (N eq_refl)..]. cbn [collected r_con]. split; [apply A; auto|exact (A eq_refl)].
Qed.
End Open.

(** Two seeders have joined and the piece is handed out. *)
Example C141_example : forall sha1 checked, exists s s' o m, tor_reach sha1 checked [ex_id] s /\ r_phase s = Adding 8 ex_s1 0 /\ tor_step sha1 checked s RAdd = Some (s', o) /\ r_mgr s' = Some m /\ ~ collected s 0 /\ collected s' 0.
Proof.
  intros sha1 checked. assert (X : exists s0 s tr s' o m, tor_new [ex_id] 5 = Val s0 /\ tor_run sha1 checked s0 (ex_joined ++ [RTick; RPick]) = Some (s, tr) /\ r_phase s = Adding 8 ex_s1 0 /\
    tor_step sha1 checked s RAdd = Some (s', o) /\ r_mgr s' = Some m /\ ~ collected s 0 /\ collected s' 0).
  { do 6 eexists. split; [vm_compute; reflexivity|]. split; [vm_compute; reflexivity|]. split; [reflexivity|]. split; [vm_compute; reflexivity|]. split; [reflexivity|]. split; [intros []|left; reflexivity]. }
  destruct X as (s0 & s & tr & s' & o & m & N & R & X). exists s, s', o, m. split; [do 4 eexists; split; [exact N|exact R]|exact X].
Qed.
Print Assumptions C141_same.
Print Assumptions C141_room.
Print Assumptions C141_added.
