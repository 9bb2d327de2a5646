(** C94, C95: one peer and the whole client; leaving on Ctrl-C. *)
From Coq Require Import List NArith ZArith Lia Bool Arith.
From Coq Require Import Init.Byte.
From Verif Require Import Base Assoc IdModel WireModel TableModel TableSpec TableProofs2 PeersModel PeersSpec BencodeModel TrackerModel ManagerModel KrpcModel DhtModel DhtSpec DhtMgrModel FetchModel TaskModel
  DhtSysModel DhtSysSpec DhtSysProps DhtEndProps ClientModel ClientSpec.
Import ListNotations.
Set Implicit Arguments.

Section client.
Variable sha : bytes -> bytes.
Variable usize_max : nat.
Variable cap : caps.
Variable tcp_port : N.
Variable cfgs : list tracker_cfg.
Notation step := (cstep sha usize_max cap tcp_port cfgs).
Notation run := (crun sha usize_max cap tcp_port cfgs).
Notation dstep := (ystep sha usize_max cap tcp_port).
Notation drun := (yrun sha usize_max cap tcp_port).

Lemma crun_app : forall es1 es2 s s1 s2 h1 h2, run s es1 = Some (s1, h1) -> run s1 es2 = Some (s2, h2) -> run s (es1 ++ es2) = Some (s2, h1 ++ h2).
Proof.
  induction es1 as [|e es1 IH]; cbn [crun app]; intros es2 s s1 s2 h1 h2 A B.
  - injection A as <- <-. exact B.
  - destruct (step s e) as [[s' o]|]; [|discriminate]. destruct (run s' es1) as [[s'' h]|] eqn:E; [|discriminate]. injection A as <- <-.
    rewrite (IH es2 s' s'' s2 h h2 E B). reflexivity.
Qed.
Lemma crun_one : forall s e s' o, step s e = Some (s', o) -> run s [e] = Some (s', [(e, o)]).
Proof. intros s e s' o H. cbn [crun]. rewrite H. reflexivity. Qed.
Lemma crun_cons : forall s e s1 o es s2 h, step s e = Some (s1, o) -> run s1 es = Some (s2, h) -> run s (e :: es) = Some (s2, (e, o) :: h).
Proof. intros s e s1 o es s2 h A B. cbn [crun]. rewrite A, B. reflexivity. Qed.
Lemma crun_snoc : forall es e s s2 h, run s (es ++ [e]) = Some (s2, h) ->
  exists s1 h1 o, run s es = Some (s1, h1) /\ step s1 e = Some (s2, o) /\ h = h1 ++ [(e, o)].
Proof.
  induction es as [|e0 es IH]; cbn [crun app]; intros e s s2 h A.
  - destruct (step s e) as [[s' o]|] eqn:S; [|discriminate]. injection A as <- <-. exists s, [], o. auto.
  - destruct (step s e0) as [[s' o]|]; [|discriminate]. destruct (run s' (es ++ [e])) as [[s'' h']|] eqn:E; [|discriminate]. injection A as <- <-.
    destruct (IH e s' s'' h' E) as (s1 & h1 & o1 & A & B & ->). exists s1, ((e0, o) :: h1), o1. rewrite A. auto.
Qed.
Lemma crun_inv : forall (P : list (cev * list cout) -> client -> Prop) s0, P [] s0 ->
  (forall h s e s' o, P h s -> step s e = Some (s', o) -> P (h ++ [(e, o)]) s') ->
  forall es s h, run s0 es = Some (s, h) -> P h s.
Proof.
  intros P s0 P0 PS es. induction es as [|e es IH] using rev_ind; intros s h R.
  - injection R as <- <-. exact P0.
  - destruct (crun_snoc _ _ _ R) as (s1 & h1 & o & A & B & ->). eauto.
Qed.

(** ** one message *)
(** The manager works off what is queued before the bad message. *)
Lemma take_all : forall q s p r m, q_exit s = false -> q_mgr s = Some m -> q_rec s = q ++ [(p, CCancel r)] ->
  exists es s' h, run s es = Some (s', h) /\ Forall (fun e => e = CTake) es /\
    q_mgr s' = None /\ q_exit s' = false /\ q_cons s' = q_cons s /\ q_dht s' = q_dht s /\ q_trk s' = q_trk s /\ q_sig s' = q_sig s.
Proof.
  induction q as [|[p0 c0] q IH]; intros s p r m X M Q.
  - exists [CTake]. eexists _, _. split; [apply crun_one; unfold cstep; rewrite X, M, Q; cbn [app]; reflexivity|]. split; [repeat constructor|]. cbn. sp; auto.
  - assert (S : step s CTake = Some (with_mgr (with_rec s (q ++ [(p, CCancel r)])) (match ManagerModel.handle_message m p0 c0 with Val m' => Some m' | _ => None end), [])).
    { unfold cstep. rewrite X, M, Q. reflexivity. }
    destruct (ManagerModel.handle_message m p0 c0) as [m'| |].
    + destruct (IH (with_mgr (with_rec s (q ++ [(p, CCancel r)])) (Some m')) p r m' X eq_refl eq_refl) as (es & s' & h & R & F & A).
      exists (CTake :: es), s', ((CTake, []) :: h). split; [eapply crun_cons; [exact S|exact R]|]. split; [constructor; auto|exact A].
    + exists [CTake]. eexists _, _. split; [apply crun_one; exact S|]. split; [repeat constructor|]. cbn. sp; auto.
    + exists [CTake]. eexists _, _. split; [apply crun_one; exact S|]. split; [repeat constructor|]. cbn. sp; auto.
Qed.
Definition over (x : pcon) : Prop := pc_con x = false /\ pc_dl x = false.
(** Without the manager a connection and its downloader end. *)
Lemma end_one : forall s i x, q_exit s = false -> q_mgr s = None -> nth_error (q_cons s) i = Some x ->
  exists es x' h, run s es = Some (with_cons s (upd (q_cons s) i x'), h) /\ Forall unprompted es /\ over x'.
Proof.
  intros s i x X M N. assert (L : i < length (q_cons s)) by (apply nth_error_Some; congruence).
  destruct x as [p sh co dl].
  assert (U : forall l (a b : pcon), upd (upd l i a) i b = upd l i b).
  { intros l. clear. revert i. induction l as [|c l IH]; intros [|i] a b; cbn; try reflexivity. f_equal. apply IH. }
  assert (NU : forall a, nth_error (upd (q_cons s) i a) i = Some a).
  { intro a. revert L. generalize (q_cons s). clear. intros l. revert i. induction l as [|c l IH]; intros [|i] L; cbn in *; try lia; try reflexivity. apply IH. lia. }
  assert (ID : forall a, nth_error (q_cons s) i = Some a -> with_cons s (upd (q_cons s) i a) = s).
  { intros a Na. assert (E : upd (q_cons s) i a = q_cons s). { revert Na. generalize (q_cons s). clear. intros l. revert i. induction l as [|c l IH]; intros [|i] L; cbn in *; try discriminate; [injection L as ->; reflexivity|]. f_equal. apply IH. exact L. }
    rewrite E. unfold with_cons. destruct s; reflexivity. }
  (* the downloader *)
  assert (D : exists es h, run s es = Some (with_cons s (upd (q_cons s) i (mk_pcon p sh co false)), h) /\ Forall unprompted es).
  { destruct dl.
    - exists [CDl i]. eexists. split; [apply crun_one; unfold cstep; rewrite X, N, M; cbn [pc_dl pc_con pc_peer pc_shaking andb]; rewrite orb_true_r; reflexivity|]. repeat (constructor; cbn; auto).
    - exists [], []. split; [cbn [crun]; rewrite (ID _ N); reflexivity|constructor]. }
  destruct D as (es1 & h1 & R1 & F1). set (s1 := with_cons s (upd (q_cons s) i (mk_pcon p sh co false))) in *.
  destruct co.
  2:{ exists es1, (mk_pcon p sh false false), h1. split; [exact R1|]. split; [exact F1|split; reflexivity]. }
  destruct sh.
  - exists (es1 ++ [CShake i false]), (mk_pcon p true false false), (h1 ++ [(CShake i false, [])]). split; [|split; [apply Forall_app; split; [exact F1|repeat (constructor; cbn; auto)]|split; reflexivity]].
    eapply crun_app; [exact R1|]. apply crun_one. unfold cstep. cbn [s1 with_cons q_exit q_cons]. rewrite X, NU. cbn [pc_con pc_shaking andb pc_peer pc_dl]. assert (TM : tell_mgr (with_cons s (upd (q_cons s) i (mk_pcon p true true false))) p CUnreachable = Some (with_cons s (upd (q_cons s) i (mk_pcon p true true false)))) by (unfold tell_mgr; cbn [with_cons q_mgr]; rewrite M; reflexivity).
    unfold s1. rewrite TM. unfold with_cons. cbn. rewrite U. reflexivity.
  - exists (es1 ++ [CSendEnd i]), (mk_pcon p false false false), (h1 ++ [(CSendEnd i, [])]). split; [|split; [apply Forall_app; split; [exact F1|repeat (constructor; cbn; auto)]|split; reflexivity]].
    eapply crun_app; [exact R1|]. apply crun_one. unfold cstep. cbn [s1 with_cons q_exit q_cons q_mgr]. rewrite X, NU, M. cbn [pc_con pc_shaking andb negb pc_peer pc_dl].
    unfold with_cons. cbn. rewrite U. reflexivity.
Qed.
Lemma end_all : forall n s, q_exit s = false -> q_mgr s = None -> n <= length (q_cons s) ->
  exists es l h, run s es = Some (with_cons s l, h) /\ Forall unprompted es /\ length l = length (q_cons s) /\ (forall i x, i < n -> nth_error l i = Some x -> over x).
Proof.
  induction n as [|n IH]; intros s X M L.
  - exists [], (q_cons s), []. split; [cbn; unfold with_cons; destruct s; reflexivity|]. split; [constructor|]. split; [reflexivity|]. intros i x I. lia.
  - destruct (IH s X M ltac:(lia)) as (es & l & h & R & F & LL & O).
    destruct (nth_error l n) as [x|] eqn:N; [|apply nth_error_None in N; lia].
    destruct (@end_one (with_cons s l) n x X M N) as (es2 & x' & h2 & R2 & F2 & O2).
    exists (es ++ es2), (upd l n x'), (h ++ h2). split; [eapply crun_app; [exact R|exact R2]|]. split; [apply Forall_app; auto|].
    split; [rewrite upd_length; exact LL|]. intros i y I. destruct (Nat.eq_dec i n) as [->|NE].
    + rewrite nth_error_upd_same by lia. intro E. injection E as <-. exact O2.
    + rewrite nth_error_upd_other by lia. apply O. lia.
Qed.
(** From any state in which a peer is connected and the DHT waits for something
    to do: one [cancel] of that peer and no further word from anybody, and
    everything but the trackers is over, with the routing table not stored. *)
Theorem C94_cascade : forall s i r, q_exit s = false -> q_mgr s <> None -> connected s i -> length (q_rec s) < 32 ->
  y_phase (q_dht s) = PIdle -> y_port (q_dht s) = [] ->
  exists es s' h, run s (CRecv i (Cancel r) :: es) = Some (s', h) /\ Forall unprompted es /\ downloading_over s' /\ y_stored (q_dht s') = y_stored (q_dht s).
Proof.
  intros s i r X M (x & N & C & SH) L P PO. destruct (q_mgr s) as [m|] eqn:MM; [|congruence].
  set (s1 := with_rec s (q_rec s ++ [(pc_peer x, CCancel r)])).
  assert (S1 : run s [CRecv i (Cancel r)] = Some (s1, [(CRecv i (Cancel r), [])])).
  { apply crun_one. unfold cstep. rewrite X, N, C, SH. cbn [andb negb WireModel.handle_message con_of_message deliver_all deliver]. unfold tell_mgr. rewrite MM.
    change 32 with REC_CAP in L. apply Nat.ltb_lt in L. rewrite L. reflexivity. }
  destruct (@take_all (q_rec s) s1 (pc_peer x) r m X MM eq_refl) as (es2 & s2 & h2 & R2 & F2 & M2 & X2 & C2 & D2 & T2 & G2).
  destruct (@end_all (length (q_cons s2)) s2 X2 M2 (le_n _)) as (es3 & l & h3 & R3 & F3 & LL & O3).
  set (s3 := with_cons s2 l) in *.
  assert (O : forall y, In y l -> over y). { intros y Y. apply In_nth_error in Y. destruct Y as (j & J). apply (O3 j); [|exact J]. rewrite <- LL. apply nth_error_Some. congruence. }
  assert (CT : existsb pc_con l = false). { apply not_true_is_false. intro E. apply existsb_exists in E. destruct E as (y & Y & E). destruct (O y Y). congruence. }
  assert (S4 : exists s4, run s3 [CDht (YTurn 0%N (fun _ l => l) SNoPeers)] = Some (s4, [(CDht (YTurn 0%N (fun _ l => l) SNoPeers), [])]) /\ s4 = with_sys s3 (with_phase (q_dht s3) PGone)).
  { eexists. split; [|reflexivity]. apply crun_one. unfold cstep. cbn [s3 with_cons q_exit]. rewrite X2. cbn [dht_ok]. unfold can_tell. cbn [s3 with_cons q_mgr q_cons]. rewrite M2, CT. cbn [negb].
    cbn [ystep]. cbn [s3 with_cons q_dht]. rewrite D2. cbn [s1 with_rec q_dht]. rewrite P, PO. reflexivity. }
  destruct S4 as (s4 & R4 & E4).
  exists (es2 ++ (es3 ++ [CDht (YTurn 0%N (fun _ l => l) SNoPeers)])), s4. eexists. split; [|split].
  - match goal with |- run s (?e :: ?l) = _ => change (e :: l) with ([e] ++ l) end. eapply crun_app; [exact S1|]. eapply crun_app; [exact R2|]. eapply crun_app; [exact R3|exact R4].
  - apply Forall_app. split; [eapply Forall_impl; [|exact F2]; intros e ->; exact I|]. apply Forall_app. split; [exact F3|]. repeat (constructor; cbn; auto).
  - subst s4. cbn. rewrite D2. split; [|reflexivity]. split; [exact M2|]. split; [exact O|reflexivity].
Qed.
(** And that is final: no connection is made any more, and a later Ctrl-C does
    not save the routing table. *)
Theorem C94_for_good : forall s es s' h, downloading_over s -> run s es = Some (s', h) ->
  downloading_over s' /\ y_stored (q_dht s') = y_stored (q_dht s) /\ forall p, ~ In (CConnect p) (seen h).
Proof.
  intros s es s' h O R.
  apply (@crun_inv (fun h z => downloading_over z /\ y_stored (q_dht z) = y_stored (q_dht s) /\ forall p, ~ In (CConnect p) (seen h)) s) with (es := es); [sp; auto; try apply O|clear es s' h R|exact R].
  intros h z e z' o ((M & C & P) & S & N) H.
  assert (G : forall z2, q_mgr z2 = None -> q_cons z2 = q_cons z -> y_phase (q_dht z2) = PGone -> y_stored (q_dht z2) = y_stored (q_dht z) -> forall o2, (forall p, ~ In (CConnect p) o2) ->
    downloading_over z2 /\ y_stored (q_dht z2) = y_stored (q_dht s) /\ forall p, ~ In (CConnect p) (seen (h ++ [(e, o2)]))).
  { intros z2 A B D E o2 F. split; [split; [exact A|rewrite B; auto]|]. split; [congruence|]. intros p I. unfold seen in I. rewrite flat_map_app in I. apply in_app_or in I. destruct I as [I|I]; [exact (N p I)|].
    cbn in I. rewrite app_nil_r in I. exact (F p I). }
  unfold cstep in H. destruct (q_exit z); [discriminate|].
  destruct e as [sent| |i ok|i m|i|i|i|i ix bs|i|e|i now e| | |ks ks'].
  - rewrite M in H. discriminate.
  - rewrite M in H. discriminate.
  - destruct (nth_error (q_cons z) i) as [x|] eqn:E; [|discriminate]. apply nth_error_In in E. destruct (C x E) as (Z & _). rewrite Z in H. discriminate.
  - destruct (nth_error (q_cons z) i) as [x|] eqn:E; [|discriminate]. apply nth_error_In in E. destruct (C x E) as (Z & _). rewrite Z in H. discriminate.
  - destruct (nth_error (q_cons z) i) as [x|] eqn:E; [|discriminate]. apply nth_error_In in E. destruct (C x E) as (Z & _). rewrite Z in H. discriminate.
  - destruct (nth_error (q_cons z) i) as [x|] eqn:E; [|discriminate]. apply nth_error_In in E. destruct (C x E) as (_ & Z). rewrite Z in H. discriminate.
  - destruct (nth_error (q_cons z) i) as [x|] eqn:E; [|discriminate]. apply nth_error_In in E. destruct (C x E) as (_ & Z). rewrite Z in H. discriminate.
  - destruct (nth_error (q_cons z) i) as [x|] eqn:E; [|discriminate]. apply nth_error_In in E. destruct (C x E) as (_ & Z). rewrite Z in H. discriminate.
  - destruct (nth_error (q_cons z) i) as [x|] eqn:E; [|discriminate]. rewrite M in H. apply nth_error_In in E. destruct (C x E) as (Z & _). rewrite Z in H. discriminate.
  - destruct (dht_ok z e); [|discriminate]. destruct (dstep (q_dht z) e) as [[y' d]|] eqn:E; [|discriminate]. cbn [option_map fst snd] in H. injection H as <- <-.
    destruct (@stored_step _ _ _ _ _ _ _ _ E) as [(A & B)|(? & ? & _ & X & _)]; [|congruence].
    apply G; auto; [apply B; exact P|]. intros p I. apply in_map_iff in I. destruct I as (? & F & _). discriminate.
  - destruct (nth_error cfgs i) as [c|]; [|discriminate]. destruct (nth_error (q_trk z) i) as [t|]; [|discriminate]. destruct (trk_ok z e); [|discriminate].
    destruct (session_step c t now DOWNLOADED e) as [[t' os]|]; [|discriminate]. cbn [option_map fst snd] in H. injection H as <- <-.
    apply G; auto. intros p I. apply in_flat_map in I. destruct I as ([] & _ & I); cbn in I; intuition discriminate.
  - destruct (q_sig z); [discriminate|]. injection H as <- <-. apply G; auto.
  - match type of H with (if ?b then _ else _) = _ => destruct b; [|discriminate] end. injection H as <- <-. apply G; auto.
  - injection H as <- <-. apply G; auto. cbn. rewrite M. reflexivity.
Qed.

(** ** leaving *)
Lemma deadlocked_peers : forall y m, deadlocked cap y -> deadlocked cap (with_peers y m).
Proof. intros y m D. exact D. Qed.
Lemma tell_frame : forall s p c s', tell_mgr s p c = Some s' -> q_dht s' = q_dht s /\ q_exit s' = q_exit s /\ q_sig s' = q_sig s /\ q_trk s' = q_trk s.
Proof.
  intros s p c s' H. unfold tell_mgr in H. destruct (q_mgr s); [|injection H as <-; auto]. destruct (_ <? _); [|discriminate]. injection H as <-. auto.
Qed.
Lemma deliver_dead : forall l s s', deadlocked cap (q_dht s) -> deliver_all sha usize_max cap tcp_port s l = Some s' ->
  deadlocked cap (q_dht s') /\ q_exit s' = q_exit s /\ y_stored (q_dht s') = y_stored (q_dht s).
Proof.
  induction l as [|d l IH]; cbn [deliver_all]; intros s s' D H; [injection H as <-; auto|].
  destruct (deliver sha usize_max cap tcp_port s d) as [s1|] eqn:E; [|discriminate].
  assert (A : deadlocked cap (q_dht s1) /\ q_exit s1 = q_exit s /\ y_stored (q_dht s1) = y_stored (q_dht s)).
  { destruct d as [p|a|p c]; unfold deliver in E.
    - injection E as <-. auto.
    - destruct (dht_alive (q_dht s)); [|injection E as <-; auto]. destruct (dstep (q_dht s) (YPort a)) as [[y o]|] eqn:Y; [|discriminate]. cbn [option_map fst] in E. injection E as <-.
      destruct (@dead_step _ _ _ _ _ _ _ _ D Y) as (B & _ & _ & _ & _ & S). auto.
    - destruct (@tell_frame _ _ _ _ E) as (-> & -> & _ & _). auto. }
  destruct A as (A & B & S). destruct (IH s1 s' A H) as (X & Y & Z). split; [exact X|]. split; congruence.
Qed.
(** A client whose DHT has come to a standstill never ends. *)
Lemma never_exits : forall es s s' h, q_exit s = false -> deadlocked cap (q_dht s) -> run s es = Some (s', h) ->
  q_exit s' = false /\ deadlocked cap (q_dht s') /\ y_stored (q_dht s') = y_stored (q_dht s).
Proof.
  intros es s s' h X D R.
  apply (@crun_inv (fun _ z => q_exit z = false /\ deadlocked cap (q_dht z) /\ y_stored (q_dht z) = y_stored (q_dht s)) s) with (es := es) (h := h); [auto|clear es s' h R|exact R].
  intros _ z e z' o (XZ & DZ & SZ) H. unfold cstep in H. rewrite XZ in H.
  destruct e as [sent| |i ok|i m|i|i|i|i ix bs|i|e|i now e| | |ks ks'].
  - destruct (q_mgr z) as [m|]; [|discriminate]. destruct (m_refresh m _) as [[[m1 tab] o1]| |]; [|injection H as <- <-; auto|injection H as <- <-; auto].
    destruct (m_assign m1 sent) as [[m2 o2]| |]; injection H as <- <-; auto.
  - destruct (q_mgr z) as [m|]; [|discriminate]. destruct (q_rec z) as [|[p c] q]; [discriminate|]. injection H as <- <-. auto.
  - destruct (nth_error (q_cons z) i) as [x|]; [|discriminate]. destruct (_ && _); [|discriminate]. destruct ok; [injection H as <- <-; auto|].
    destruct (tell_mgr z _ _) as [z1|] eqn:T; [|discriminate]. cbn [option_map] in H. injection H as <- <-. destruct (@tell_frame _ _ _ _ T) as (A & B & _ & _). cbn. rewrite A, B. auto.
  - destruct (nth_error (q_cons z) i) as [x|]; [|discriminate]. destruct (_ && _); [|discriminate].
    destruct (deliver_all _ _ _ _ z _) as [z1|] eqn:T; [|discriminate]. cbn [option_map] in H. injection H as <- <-. destruct (@deliver_dead _ _ _ DZ T) as (A & B & C). rewrite B, C. auto.
  - destruct (nth_error (q_cons z) i) as [x|]; [|discriminate]. destruct (_ && _); [|discriminate]. injection H as <- <-. auto.
  - destruct (nth_error (q_cons z) i) as [x|]; [|discriminate]. destruct (_ && _); [|discriminate]. injection H as <- <-. auto.
  - destruct (nth_error (q_cons z) i) as [x|]; [|discriminate]. destruct (pc_dl x); [|discriminate]. injection H as <- <-. auto.
  - destruct (nth_error (q_cons z) i) as [x|]; [|discriminate]. destruct (pc_dl x); [|discriminate]. destruct (tell_mgr z _ _) as [z1|] eqn:T; [|discriminate]. cbn [option_map] in H. injection H as <- <-.
    destruct (@tell_frame _ _ _ _ T) as (A & B & _ & _). rewrite A, B. auto.
  - destruct (nth_error (q_cons z) i) as [x|]; [|discriminate]. destruct (q_mgr z); [discriminate|]. destruct (_ && _); [|discriminate]. injection H as <- <-. auto.
  - destruct (dht_ok z e); [|discriminate]. destruct (dstep (q_dht z) e) as [[y d]|] eqn:E; [|discriminate]. cbn [option_map fst snd] in H. injection H as <- <-.
    destruct (@dead_step _ _ _ _ _ _ _ _ DZ E) as (A & _ & _ & _ & _ & S). cbn. rewrite S. auto.
  - destruct (nth_error cfgs i) as [c|]; [|discriminate]. destruct (nth_error (q_trk z) i) as [t|]; [|discriminate]. destruct (trk_ok z e); [|discriminate].
    destruct (session_step c t now DOWNLOADED e) as [[t' os]|]; [|discriminate]. cbn [option_map fst snd] in H. injection H as <- <-. auto.
  - destruct (q_sig z); [discriminate|]. injection H as <- <-. auto.
  - assert (A : dht_alive (q_dht z) = true) by (destruct DZ as (_ & (c & l & [P|P]) & _); unfold dht_alive; rewrite P; reflexivity).
    rewrite A in H. cbn [negb] in H. rewrite andb_false_r in H. discriminate.
  - injection H as <- <-. auto.
Qed.
(** What the DHT does on its own, and ports told by the peer of connection 0,
    can happen in the client. *)
Lemma lift : forall p n es s y h, q_exit s = false -> (exists x, nth_error (q_cons s) 0 = Some x /\ pc_con x = true /\ pc_shaking x = false /\ pc_peer x = p) ->
  Forall (gentle (mk_addr (ip0 p) (ip1 p) (ip2 p) (ip3 p) n)) es -> drun (q_dht s) es = Some (y, h) -> exists es' h', run s es' = Some (with_sys s y, h') /\ ~ In CSignal es'.
Proof.
  intros p n. induction es as [|e es IH]; intros s y h X C F R.
  - injection R as <- <-. exists [], []. split; [destruct s; reflexivity|auto].
  - cbn [yrun] in R. destruct (dstep (q_dht s) e) as [[y1 o]|] eqn:E; [|discriminate]. destruct (drun y1 es) as [[y2 h2]|] eqn:R2; [|discriminate]. injection R as <- <-.
    inversion F as [|? ? G F2]; subst.
    destruct (IH (with_sys s y1) y2 h2 X C F2 R2) as (es' & h' & R' & NS).
    assert (K : exists e' o', step s e' = Some (with_sys s y1, o') /\ e' <> CSignal).
    { assert (K1 : dht_ok s e = true -> exists e' o', step s e' = Some (with_sys s y1, o') /\ e' <> CSignal).
      { intro OK. exists (CDht e). eexists. split; [unfold cstep; rewrite X, OK, E; reflexivity|discriminate]. }
      destruct e as [from m|t| | | |now pick sr| |n2 n3| | | | |a|q]; cbn in G; try contradiction; try (apply K1; reflexivity).
      - destruct sr; try contradiction; apply K1; reflexivity.
      - subst a. destruct C as (x & N & C1 & C2 & C3). exists (CRecv 0 (Port n)). eexists. split; [|discriminate]. unfold cstep. rewrite X, N, C1, C2, C3. cbn [andb negb WireModel.handle_message deliver_all deliver].
        assert (A : dht_alive (q_dht s) = true). { cbn [ystep] in E. destruct (dht_alive (q_dht s)); [reflexivity|discriminate]. }
        unfold deliver. rewrite A, E. reflexivity. }
    destruct K as (e' & o' & K & KN). exists (e' :: es'), ((e', o') :: h'). split; [exact (crun_cons _ _ _ K R')|]. intros [B|B]; auto.
Qed.
Lemma gentle_stored : forall a es y y' h, Forall (gentle a) es -> drun y es = Some (y', h) -> y_stored y' = y_stored y.
Proof.
  intros a. induction es as [|e es IH]; intros y y' h F R; cbn [yrun] in R; [injection R as <- <-; reflexivity|].
  destruct (dstep y e) as [[y1 o]|] eqn:E; [|discriminate]. destruct (drun y1 es) as [[y2 h2]|] eqn:R2; [|discriminate]. injection R as <- <-. inversion F as [|? ? G F2]; subst.
  rewrite (IH _ _ _ F2 R2). destruct (@stored_step _ _ _ _ _ _ _ _ E) as [(A & _)|(? & ? & -> & _)]; [exact A|]. destruct G.
Qed.
(** *** what holds of leaving *)
Definition rank (p : phase) : nat := match p with PGone => 0 | PIdle => 1 | PStart l | PSend l => 2 + length l end.
Lemma rank_step : forall y e y' o, unaided e -> dstep y e = Some (y', o) -> y_phase y' = y_phase y \/ rank (y_phase y') < rank (y_phase y).
Proof.
  intros y e y' o [->|[->|(t & ->)]] H; cbn [ystep] in H.
  - left. destruct (y_sock y) as [d|]; [|discriminate]. destruct (y_outs y) as [|x os]; [discriminate|]. apply (@out_frame _ _ _ _ _ _ _ H).
  - right. destruct (y_phase y) as [[|c l]| |[|c l]|] eqn:P; try discriminate.
    + injection H as <- <-. cbn. lia.
    + destruct (sock_alive y); [|injection H as <- <-; cbn; lia]. destruct (send_cmd cap y DHT c); [|discriminate]. injection H as <- <-. cbn. lia.
    + destruct (sock_alive y); [|injection H as <- <-; cbn; lia]. destruct (send_cmd cap y DHT c); [|discriminate]. injection H as <- <-. cbn. lia.
  - left. destruct (y_sock y) as [d|]; [|discriminate]. destruct (y_outs y); [|discriminate]. destruct (y_cmd y) as [|[req c] q]; [discriminate|]. injection H as <- <-.
    match goal with |- context [after_sock ?y ?r] => destruct (@after_frame y r) as (_ & -> & _) end. reflexivity.
Qed.
Lemma rank_run : forall es y y' h, Forall unaided es -> drun y es = Some (y', h) -> y_phase y' = y_phase y \/ rank (y_phase y') < rank (y_phase y).
Proof.
  induction es as [|e es IH]; intros y y' h F R; cbn [yrun] in R.
  - injection R as <- <-. auto.
  - destruct (dstep y e) as [[y1 o]|] eqn:E; [|discriminate]. destruct (drun y1 es) as [[y2 h2]|] eqn:R2; [|discriminate]. injection R as <- <-. inversion F; subst.
    destruct (@rank_step _ _ _ _ H1 E) as [A|A]; destruct (IH _ _ _ H2 R2) as [B|B]; [left; congruence|right; rewrite <- A; exact B|right; rewrite B; exact A|right; lia].
Qed.
(** Steps of the DHT that need nobody else. *)
Definition own (e : yev) : Prop := unaided e \/ exists a b, e = YCheck a b.
Lemma settle : forall n y, rank (y_phase y) <= n -> 0 < c_cmd cap ->
  exists es y' h, drun y es = Some (y', h) /\ Forall own es /\ (y_phase y' = PIdle \/ y_phase y' = PGone \/ deadlocked cap y' \/ waits_for_search cap y').
Proof.
  induction n as [|n IH]; intros y L C.
  - destruct (y_phase y) eqn:P; cbn in L; try lia. exists [], y, []. split; [reflexivity|]. split; [constructor|auto].
  - destruct (y_phase y) as [[|c l]| |[|c l]|] eqn:P.
    + exists [YSend]. eexists _, _. split; [cbn [yrun ystep]; rewrite P; reflexivity|]. split; [constructor; [left; unfold unaided; auto|constructor]|]. left. reflexivity.
    + destruct (@wait_ends sha usize_max cap tcp_port [] (length (y_outs y)) y (le_n _)) as (es & y1 & h1 & R & F & X); [exists c, l; auto|exact C|].
      assert (FO : Forall own es) by (eapply Forall_impl; [|exact F]; intros e U; left; exact U).
      destruct X as [X|[X|X]]; [|exists es, y1, h1; tauto|exists es, y1, h1; tauto].
      destruct (@rank_run es y y1 h1 F R) as [E|E]; [contradiction|]. rewrite P in E.
      destruct (IH y1) as (es2 & y2 & h2 & R2 & F2 & X2); [lia|exact C|]. exists (es ++ es2), y2, (h1 ++ h2). split; [eapply yrun_app; eauto|]. split; [apply Forall_app; auto|exact X2].
    + exists [], y, []. split; [reflexivity|]. split; [constructor|]. left. exact P.
    + exists [YCheck 0 0]. cbn [yrun ystep]. rewrite P. destruct (_ && _).
      * destruct (spawn_fetcher _ _ _ _ _) as [[f|]| |]; eexists _, _; (split; [reflexivity|]); (split; [constructor; [right; eauto|constructor]|]); cbn; tauto.
      * eexists _, _; (split; [reflexivity|]); (split; [constructor; [right; eauto|constructor]|]); cbn; tauto.
    + destruct (@wait_ends sha usize_max cap tcp_port [] (length (y_outs y)) y (le_n _)) as (es & y1 & h1 & R & F & X); [exists c, l; auto|exact C|].
      assert (FO : Forall own es) by (eapply Forall_impl; [|exact F]; intros e U; left; exact U).
      destruct X as [X|[X|X]]; [|exists es, y1, h1; tauto|exists es, y1, h1; tauto].
      destruct (@rank_run es y y1 h1 F R) as [E|E]; [contradiction|]. rewrite P in E.
      destruct (IH y1) as (es2 & y2 & h2 & R2 & F2 & X2); [lia|exact C|]. exists (es ++ es2), y2, (h1 ++ h2). split; [eapply yrun_app; eauto|]. split; [apply Forall_app; auto|exact X2].
    + exists [], y, []. split; [reflexivity|]. split; [constructor|auto].
Qed.
Lemma lift_own : forall es s y h, q_exit s = false -> Forall own es -> drun (q_dht s) es = Some (y, h) -> exists es' h', run s es' = Some (with_sys s y, h') /\ Forall unprompted es'.
Proof.
  induction es as [|e es IH]; intros s y h X F R.
  - injection R as <- <-. exists [], []. split; [destruct s; reflexivity|auto].
  - cbn [yrun] in R. destruct (dstep (q_dht s) e) as [[y1 o]|] eqn:E; [|discriminate]. destruct (drun y1 es) as [[y2 h2]|] eqn:R2; [|discriminate]. injection R as <- <-.
    inversion F as [|? ? G F2]; subst. destruct (IH (with_sys s y1) y2 h2 X F2 R2) as (es' & h' & R' & U).
    exists (CDht e :: es'). eexists. split; [eapply crun_cons; [|exact R']|].
    + unfold cstep. rewrite X. assert (OK : dht_ok s e = true) by (destruct G as [[->|[->|(t & ->)]]|(? & ? & ->)]; reflexivity). rewrite OK, E. reflexivity.
    + constructor; [|exact U]. destruct G as [[->|[->|(t & ->)]]|(? & ? & ->)]; exact I.
Qed.
(** The tracker sessions all take the signal. *)
Lemma end_trk : forall n s, q_exit s = false -> q_sig s = true -> length (q_trk s) = length cfgs -> n <= length cfgs ->
  exists es l h, run s es = Some (with_trk s l, h) /\ Forall unprompted es /\ length l = length cfgs /\ (forall i t, i < n -> nth_error l i = Some t -> trk_over t = true).
Proof.
  induction n as [|n IH]; intros s X G L N.
  - exists [], (q_trk s), []. split; [destruct s; reflexivity|]. split; [constructor|]. split; [exact L|]. intros i t I. lia.
  - destruct (IH s X G L ltac:(lia)) as (es & l & h & R & U & LL & O).
    destruct (nth_error l n) as [t|] eqn:NT; [|apply nth_error_None in NT; lia]. destruct (nth_error cfgs n) as [c|] eqn:NC; [|apply nth_error_None in NC; lia].
    assert (D : forall z, trk_over z = true -> forall i t, i < S n -> nth_error (upd l n z) i = Some t -> trk_over t = true).
    { intros z Z i y I. destruct (Nat.eq_dec i n) as [->|NE]; [rewrite nth_error_upd_same by lia; congruence|rewrite nth_error_upd_other by lia; apply O; lia]. }
    destruct (trk_over t) eqn:TO.
    + exists es, l, h. split; [exact R|]. split; [exact U|]. split; [exact LL|]. intros i y I E. destruct (Nat.eq_dec i n) as [->|NE]; [congruence|apply (O i y); [lia|exact E]].
    + assert (ST : exists z os, session_step c t 0 DOWNLOADED Shutdown = Some (z, os) /\ trk_over z = true /\ (os = [] \/ exists a, os = [Get a])).
      { cbn [session_step]. unfold trk_over in TO. destruct (t_phase t) as [| |iv| |]; try discriminate TO; cbn.
        - eexists _, _. split; [reflexivity|]. auto.
        - eexists _, _. split; [reflexivity|]. auto.
        - destruct (left_bytes c DOWNLOADED); eexists _, _; (split; [reflexivity|]); (split; [reflexivity|]); eauto. }
      destruct ST as (z & os & ST & ZO & OS).
      exists (es ++ [CTrk n 0 Shutdown]), (upd l n z). eexists. split; [eapply crun_app; [exact R|apply crun_one]|].
      * unfold cstep. cbn [with_trk q_exit q_trk]. rewrite X, NC, NT. unfold trk_ok. cbn [with_trk q_sig]. rewrite G, ST. cbn [option_map fst snd].
        assert (FP : forall m, fold_left trk_found os m = m) by (intro m; destruct OS as [->|(a & ->)]; reflexivity). rewrite FP.
        f_equal. f_equal. unfold with_sys, with_trk, with_peers. cbn. destruct (q_dht s); reflexivity.
      * split; [apply Forall_app; split; [exact U|repeat (constructor; cbn; auto)]|]. split; [rewrite upd_length; exact LL|]. apply D. exact ZO.
Qed.
(** After Ctrl-C the client can end by itself, unless its DHT waits as described
    in C89 or for the peer search as in C90. *)
Theorem C95_exit_partial : forall s, q_exit s = false -> q_sig s = true -> length (q_trk s) = length cfgs -> 0 < c_cmd cap ->
  exists es s' h, run s es = Some (s', h) /\ Forall unprompted es /\
    (q_exit s' = true \/ deadlocked cap (q_dht s') \/ waits_for_search cap (q_dht s')).
Proof.
  intros s X G L C. destruct (@settle (rank (y_phase (q_dht s))) (q_dht s) (le_n _) C) as (es1 & y1 & h1 & R1 & F1 & P1).
  destruct (@lift_own es1 s y1 h1 X F1 R1) as (es1' & h1' & R1' & U1).
  assert (GO : y_phase y1 = PIdle \/ y_phase y1 = PGone -> exists es s' h, run s es = Some (s', h) /\ Forall unprompted es /\ q_exit s' = true).
  { intro P. assert (T : exists es s2 h2, run (with_sys s y1) es = Some (s2, h2) /\ Forall unprompted es /\ q_exit s2 = false /\ q_sig s2 = true /\ q_trk s2 = q_trk s /\ y_phase (q_dht s2) = PGone).
    { destruct P as [P|P].
      - exists [CDht (YTurn 0 (fun _ l => l) SShutdown)]. eexists _, _. split; [apply crun_one; unfold cstep; cbn [with_sys q_exit q_dht]; rewrite X; cbn [dht_ok with_sys q_sig]; rewrite G; cbn [ystep]; rewrite P; reflexivity|].
        split; [repeat (constructor; cbn; auto)|]. cbn. auto.
      - exists [], (with_sys s y1), []. split; [reflexivity|]. split; [constructor|]. cbn. auto. }
    destruct T as (es2 & s2 & h2 & R2 & U2 & X2 & G2 & T2 & P2).
    destruct (@end_trk (length cfgs) s2 X2 G2 ltac:(congruence) (le_n _)) as (es3 & l & h3 & R3 & U3 & L3 & O3).
    assert (FO : forallb trk_over l = true). { apply forallb_forall. intros t I. apply In_nth_error in I. destruct I as (i & I). apply (O3 i); [|exact I]. rewrite <- L3. apply nth_error_Some. congruence. }
    exists (es1' ++ (es2 ++ (es3 ++ [CExit]))). eexists _, _. split; [eapply crun_app; [exact R1'|]; eapply crun_app; [exact R2|]; eapply crun_app; [exact R3|]; apply crun_one|].
    - unfold cstep. cbn [with_trk q_exit q_sig q_dht q_trk]. unfold dht_alive. rewrite X2, G2, P2, FO. cbn [negb andb]. reflexivity.
    - split; [|reflexivity]. repeat (apply Forall_app; split; auto). repeat (constructor; cbn; auto). }
  destruct P1 as [P1|[P1|P1]]; [| |exists es1', (with_sys s y1), h1'; auto].
  - destruct (GO (or_introl P1)) as (es & s' & h & R & U & E). exists es, s', h. auto.
  - destruct (GO (or_intror P1)) as (es & s' & h & R & U & E). exists es, s', h. auto.
Qed.
End client.

(** ** from the start *)
Definition ex_peer : addr := mk_addr x01 x02 x03 x04 6881.
Definition ex_cfg : tracker_cfg := mk_cfg [] ex_info ex_own 6881 1 16384.
Definition ex_client (secret : ID) : client := client_start [ex_cfg] ex_own secret ex_info [ex_node] true (t_default ex_own) 0.
(** A tracker names a peer, the client connects to it. *)
Definition ex_meet : list cev :=
  [CTrk 0 1 (Answer (mk_response None 1800 None None 1 0 [ex_peer])); CTick (fun _ => true); CShake 0 true; CDht YSend].
Example ex_met : forall sha usize_max cap tcp_port secret, exists s h,
  crun sha usize_max cap tcp_port [ex_cfg] (ex_client secret) ex_meet = Some (s, h) /\ seen h = [CConnect ex_peer] /\ q_exit s = false /\ q_sig s = false /\ q_mgr s <> None /\ q_rec s = [] /\
  nth_error (q_cons s) 0 = Some (mk_pcon ex_peer false true true) /\ at_rest (q_dht s) /\ y_stored (q_dht s) = None /\ length (q_trk s) = 1.
Proof.
  intros. eexists _, _. split; [vm_compute; reflexivity|]. cbn. sp; auto; try discriminate. unfold at_rest. cbn. sp; auto; try discriminate.
  - apply (@reachable_inv (t_default ex_own)). apply rc_new. reflexivity.
  - reflexivity.
Qed.
(** No message a single peer sends, followed by whatever the client does by
    itself, ends the download for all peers: refuted. *)
Definition C94_survives_always (sha : bytes -> bytes) (usize_max : nat) (cap : caps) (tcp_port : N) (cfgs : list tracker_cfg) (start : client) : Prop :=
  forall es s h i m es' s' h', crun sha usize_max cap tcp_port cfgs start es = Some (s, h) -> ~ In CSignal es -> ~ downloading_over s ->
    crun sha usize_max cap tcp_port cfgs s (CRecv i m :: es') = Some (s', h') -> Forall unprompted es' -> ~ downloading_over s'.
Theorem C94_survives_refuted : forall sha usize_max tcp_port secret,
  ~ C94_survives_always sha usize_max CAPS tcp_port [ex_cfg] (ex_client secret) /\
  exists es s h, crun sha usize_max CAPS tcp_port [ex_cfg] (ex_client secret) es = Some (s, h) /\ ~ In CSignal es /\ In (CConnect ex_peer) (seen h) /\
    forall es' s' h', crun sha usize_max CAPS tcp_port [ex_cfg] s es' = Some (s', h') -> downloading_over s' /\ y_stored (q_dht s') = None /\ forall p, ~ In (CConnect p) (seen h').
Proof.
  intros sha usize_max tcp_port secret. destruct (@ex_met sha usize_max CAPS tcp_port secret) as (s & h & R & O & X & G & M & Q & N & RE & ST & _).
  destruct (@C94_cascade sha usize_max CAPS tcp_port [ex_cfg] s 0 (mk_request 0 0 16384) X M) as (es & s' & h' & R' & U & OV & ST').
  - exists (mk_pcon ex_peer false true true). auto.
  - rewrite Q. apply Nat.ltb_lt. reflexivity.
  - apply RE.
  - apply RE.
  - assert (NS : ~ In CSignal ex_meet) by (cbn; intuition discriminate). split.
    + intro A. eapply A; [exact R|exact NS| |exact R'|exact U|exact OV]. intros (B & _). contradiction.
    + exists (ex_meet ++ CRecv 0 (Cancel (mk_request 0 0 16384)) :: es), s', (h ++ h'). split; [eapply crun_app; eauto|]. split; [|split].
      * intro I. apply in_app_or in I. destruct I as [I|[I|I]]; [auto|discriminate|]. rewrite Forall_forall in U. exact (U _ I).
      * unfold seen in *. rewrite flat_map_app. apply in_or_app. left. rewrite O. left. reflexivity.
      * intros es2 s2 h2 R2. destruct (@C94_for_good _ _ _ _ _ _ _ _ _ OV R2) as (A & B & C). split; [exact A|]. split; [congruence|exact C].
Qed.
(** After Ctrl-C the client ends sooner or later: refuted. What the other side
    did before makes it stay for ever. *)
Definition C95_exit_always (sha : bytes -> bytes) (usize_max : nat) (cap : caps) (tcp_port : N) (cfgs : list tracker_cfg) (start : client) : Prop :=
  forall es s h, crun sha usize_max cap tcp_port cfgs start es = Some (s, h) -> q_sig s = true ->
    exists es' s' h', crun sha usize_max cap tcp_port cfgs s es' = Some (s', h') /\ q_exit s' = true.
Theorem C95_exit_refuted : forall sha usize_max tcp_port secret,
  ~ C95_exit_always sha usize_max CAPS tcp_port [ex_cfg] (ex_client secret) /\
  exists es s h, crun sha usize_max CAPS tcp_port [ex_cfg] (ex_client secret) es = Some (s, h) /\ q_sig s = true /\
    forall es' s' h', crun sha usize_max CAPS tcp_port [ex_cfg] s es' = Some (s', h') -> q_exit s' = false /\ y_stored (q_dht s') = None.
Proof.
  intros sha usize_max tcp_port secret.
  assert (W : exists es s h, crun sha usize_max CAPS tcp_port [ex_cfg] (ex_client secret) es = Some (s, h) /\ q_sig s = true /\
    forall es' s' h', crun sha usize_max CAPS tcp_port [ex_cfg] s es' = Some (s', h') -> q_exit s' = false /\ y_stored (q_dht s') = None).
  { destruct (@ex_met sha usize_max CAPS tcp_port secret) as (s & h & R & O & X & G & M & Q & N & RE & ST & _).
    destruct (@deadlock_from_rest sha usize_max CAPS tcp_port (mk_addr x01 x02 x03 x04 6881) 0%N ex_own ex_own [] (q_dht s)) as (es1 & y1 & h1 & R1 & F1 & D1); [cbn; lia|exact RE|].
    destruct (@lift sha usize_max CAPS tcp_port [ex_cfg] ex_peer 6881 es1 s y1 h1 X) as (es2 & h2 & R2 & _); [eexists; split; [exact N|]; cbn; auto|exact F1|exact R1|].
    assert (S1 : y_stored y1 = None).
    { rewrite <- ST. exact (@gentle_stored _ _ _ _ _ _ _ _ _ F1 R1). }
    exists (ex_meet ++ (es2 ++ [CSignal])). eexists _, _. split; [eapply crun_app; [exact R|]; eapply crun_app; [exact R2|]; apply crun_one; unfold cstep; cbn [with_sys q_exit q_sig]; rewrite X, G; reflexivity|].
    split; [reflexivity|]. intros es' s' h' R'. cbn [with_sys q_mgr q_rec q_cons q_dht q_trk q_exit] in R'.
    match type of R' with crun _ _ _ _ _ ?z _ = _ => destruct (@never_exits sha usize_max CAPS tcp_port [ex_cfg] es' z s' h' eq_refl D1 R') as (A & _ & B) end. split; [exact A|]. rewrite B. exact S1. }
  split; [|exact W]. destruct W as (es & s & h & R & G & A). intro B. destruct (B es s h R G) as (es' & s' & h' & R' & E). destruct (A _ _ _ R') as (C & _). congruence.
Qed.

(** The client at work, to which C94 and C95 apply. *)
Example C94_example : exists s h, crun (fun x => x) 100 CAPS 6881 [ex_cfg] (ex_client ex_own) ex_meet = Some (s, h) /\ ~ downloading_over s /\ connected s 0 /\ q_exit s = false.
Proof.
  destruct (@ex_met (fun x => x) 100 CAPS 6881%N ex_own) as (s & h & R & O & X & G & M & Q & N & _). exists s, h. split; [exact R|]. split; [intros (A & _); contradiction|]. split; [|exact X].
  eexists. split; [exact N|]. auto.
Qed.
Example C95_example : exists es s h, crun (fun x => x) 100 CAPS 6881 [ex_cfg] (ex_client ex_own) (ex_meet ++ CSignal :: es) = Some (s, h) /\ q_exit s = true /\ y_stored (q_dht s) = Some (t_default ex_own).
Proof. exists [CDht (YTurn 0 ex_pick SShutdown); CTrk 0 5 Shutdown; CExit]. eexists _, _. split; [vm_compute; reflexivity|]. auto. Qed.

Print Assumptions C94_cascade.
Print Assumptions C94_for_good.
Print Assumptions C94_survives_refuted.
Print Assumptions C95_exit_partial.
Print Assumptions C95_exit_refuted.
