(** C94 continued: exactly which step ends the torrent manager of a running
    client. *)
From Coq Require Import List NArith ZArith Lia Bool Arith.
From Coq Require Import Init.Byte.
From Verif Require Import Base Assoc BitmapModel IdModel WireModel TableModel PeersModel PeersSpec TrackerModel ManagerModel ManagerSpec ManagerProofs ManagerProofs2 ManagerProps FatalProps
  KrpcModel DhtModel DhtMgrModel FetchModel TaskModel DhtSysModel DhtSysProps ClientModel ClientSpec ClientProps ClientInvProps.
Import ListNotations.
Set Implicit Arguments.

(** A message among those of [fatal] is the next one the manager takes. *)
Definition takes_fatal (n : nat) (s : client) (m : mgr) (e : cev) : Prop :=
  e = CTake /\ exists p c q, q_rec s = (p, c) :: q /\ FatalProps.fatal n m p c.
(** Some downloader panicked while it held the mutex around the pieces, and the
    manager, after it has filled up its peers, has a piece to hand out. *)
Definition hands_poisoned (s : client) (m : mgr) (e : cev) : Prop :=
  exists sent, e = CTick sent /\ q_poison s = true /\
  exists m1 tab o1 m2 o2 p i h, m_refresh m (y_peers (q_dht s)) = Val (m1, tab, o1) /\ m_assign m1 sent = Val (m2, o2) /\ In (OStart p i h) o2.

Section client.
Variable sha : bytes -> bytes.
Variable usize_max : nat.
Variable cap : caps.
Variable tcp_port : N.
Variable cfgs : list tracker_cfg.
Variable hashes : list ID.
Notation step := (cstep sha usize_max cap tcp_port cfgs).
Notation run := (crun sha usize_max cap tcp_port cfgs).

Theorem C94_exact : forall own secret info fs_ok t now es s h m e s' o, run (client_start cfgs own secret info hashes fs_ok t now) es = Some (s, h) ->
  q_mgr s = Some m -> step s e = Some (s', o) ->
  (q_mgr s' = None <-> takes_fatal (length hashes) s m e \/ hands_poisoned s m e).
Proof.
  intros own secret info fs_ok t now es s h m e s' o R M S.
  pose proof (@cinv_run sha usize_max cap tcp_port cfgs hashes _ _ _ _ _ _ _ _ _ R) as I.
  pose proof (ci_reach I M) as RE.
  assert (QUIET : e <> CTake -> (forall sent, e <> CTick sent) -> q_mgr s' <> None -> (q_mgr s' = None <-> takes_fatal (length hashes) s m e \/ hands_poisoned s m e)).
  { intros A B C. split; [tauto|]. intros [[D _]|(x & D & _)]; [tauto|]. destruct (B _ D). }
  unfold cstep in S. destruct (q_exit s); [discriminate|]. destruct e.
  - clear QUIET. rewrite M in S. destruct (proj2 (proj2 (C29_limits RE))) as [([[m1 tab] o1] & E1) _]. cbn [fst snd] in E1. rewrite E1 in S.
    assert (RE1 : sys_reach hashes (m1, tab)) by (apply (@reach_step hashes _ ERefresh _ o1 RE); cbn [sys_step fst snd]; rewrite E1; reflexivity).
    destruct (proj2 (proj2 (proj2 (C29_limits RE1))) sent) as [[m2 o2] E2]. cbn [fst snd] in E2. rewrite E2 in S. injection S as <- <-. cbn [with_mgr q_mgr].
    assert (X : existsb starts o2 = true <-> exists p i h0, In (OStart p i h0) o2).
    { rewrite existsb_exists. split; [intros ([p|p i h0] & A & B); [discriminate|eauto]|intros (p & i & h0 & A); eauto]. }
    destruct (q_poison s) eqn:P; cbn [andb].
    + destruct (existsb starts o2).
      * split; auto. intros _. right. exists sent. split; auto. split; auto. destruct (proj1 X eq_refl) as (p & i & h0 & A). exists m1, tab, o1, m2, o2, p, i, h0. auto.
      * split; [discriminate|]. intros [[A _]|(x & A & _ & m1' & tab' & o1' & m2' & o2' & p & i & h0 & B & C & D)]; [discriminate|].
        injection A as <-. rewrite E1 in B. injection B as <- <- <-. rewrite E2 in C. injection C as <- <-. exfalso. assert (Y : false = true) by (apply X; eauto). discriminate Y.
    + split; [discriminate|]. intros [[A _]|(x & _ & A & _)]; [discriminate|congruence].
  - clear QUIET. rewrite M in S. destruct (q_rec s) as [|[p c] q] eqn:Q; [discriminate|]. injection S as <- <-. cbn [with_mgr with_rec q_mgr].
    destruct (@C33_exact hashes _ p c RE) as [A B]. cbn [fst] in A, B. split.
    + intro N. left. split; auto. exists p, c, q. split; auto. apply A. destruct (ManagerModel.handle_message m p c) as [m'| |] eqn:H; [discriminate| |reflexivity].
      exfalso. destruct B as [m' B]; [|discriminate]. intro F. apply A in F. discriminate.
    + intros [[_ (p' & c' & q' & C & F)]|(x & C & _)]; [|discriminate]. rewrite Q in C. injection C as <- <- <-. apply A in F. rewrite F. reflexivity.
  - apply QUIET; try discriminate. destruct (nth_error (q_cons s) i) as [x|]; [|discriminate]. destruct (_ && _); [|discriminate]. destruct ok.
    + injection S as <- <-. cbn. congruence.
    + destruct (tell_mgr s _ _) as [s1|] eqn:T; [|discriminate]. injection S as <- <-. apply tell_rec in T. destruct T as (T & _). cbn. congruence.
  - apply QUIET; try discriminate. destruct (nth_error (q_cons s) i) as [x|]; [|discriminate]. destruct (_ && _); [|discriminate].
    destruct (deliver_all _ _ _ _ _ _) as [s1|] eqn:T; [|discriminate]. injection S as <- <-. apply deliver_frame in T. destruct T as (T & _). congruence.
  - apply QUIET; try discriminate. destruct (nth_error (q_cons s) i) as [x|]; [|discriminate]. destruct (_ && _); [|discriminate]. injection S as <- <-. cbn. congruence.
  - apply QUIET; try discriminate. destruct (nth_error (q_cons s) i) as [x|]; [|discriminate]. destruct (_ && _); [|discriminate]. injection S as <- <-. cbn. congruence.
  - apply QUIET; try discriminate. destruct (nth_error (q_cons s) i) as [x|]; [|discriminate]. destruct (pc_dl x); [|discriminate]. injection S as <- <-. cbn. congruence.
  - apply QUIET; try discriminate. destruct (nth_error (q_cons s) i) as [x|]; [|discriminate]. destruct (pc_dl x); [|discriminate].
    destruct (tell_mgr s _ _) as [s1|] eqn:T; [|discriminate]. injection S as <- <-. apply tell_rec in T. destruct T as (T & _). congruence.
  - apply QUIET; try discriminate. rewrite M in S. destruct (nth_error (q_cons s) i); discriminate.
  - apply QUIET; try discriminate. destruct (dht_ok s e); [|discriminate]. destruct (ystep _ _ _ _ _ _) as [[y oo]|]; [|discriminate]. injection S as <- <-. cbn. congruence.
  - apply QUIET; try discriminate. destruct (nth_error cfgs i); [|discriminate]. destruct (nth_error (q_trk s) i); [|discriminate]. destruct (trk_ok s e); [|discriminate].
    destruct (session_step _ _ _ _ _) as [[y oo]|]; [|discriminate]. injection S as <- <-. cbn. congruence.
  - apply QUIET; try discriminate. destruct (q_sig s); [discriminate|]. injection S as <- <-. cbn. congruence.
  - apply QUIET; try discriminate. destruct (_ && _); [|discriminate]. injection S as <- <-. cbn. congruence.
  - apply QUIET; try discriminate. injection S as <- <-. cbn. rewrite M. discriminate.
Qed.

(** Who is to blame: the [i]-th connection of the run, to the peer [p], on which
    the peer sent [w]; or whose downloader reported a finished piece; or whose
    downloader panicked with the mutex held. *)
Definition said (h : list (cev * list cout)) (p : addr) (c : con_message) : Prop :=
  exists i, nth_error (connects h) i = Some p /\
  ((exists w, In (CRecv i w) (map fst h) /\ con_of_message w = Val c) \/ (exists idx d, c = CFinishedPiece idx d /\ In (CDone i idx d) (map fst h)) \/ (c = CUnreachable /\ In (CShake i false) (map fst h))).
Definition poisoned_by (h : list (cev * list cout)) : Prop :=
  exists i p, nth_error (connects h) i = Some p /\ In (CDlPanic i true) (map fst h).
Definition traced (h : list (cev * list cout)) (s : client) : Prop :=
  (forall p c, In (p, c) (q_rec s) -> said h p c) /\ (q_poison s = true -> poisoned_by h).
Lemma nth_more : forall A (l l' : list A) i x, nth_error l i = Some x -> nth_error (l ++ l') i = Some x.
Proof. intros A l l' i x H. rewrite nth_error_app1; auto. apply nth_error_Some. congruence. Qed.
Lemma said_more : forall h e o p c, said h p c -> said (h ++ [(e, o)]) p c.
Proof.
  intros h e o p c (i & A & B). exists i. rewrite connects_app, map_app. split; [apply nth_more, A|].
  destruct B as [(w & B & C)|[(idx & d & B & C)|(B & C)]]; [left; exists w|right; left; exists idx, d|right; right]; split; auto; apply in_or_app; auto.
Qed.
Lemma poison_more : forall h e o, poisoned_by h -> poisoned_by (h ++ [(e, o)]).
Proof. intros h e o (i & p & A & B). exists i, p. rewrite connects_app, map_app. split; [apply nth_more, A|apply in_or_app; auto]. Qed.
Lemma traced_more : forall h s s' e o, traced h s -> (forall x, In x (q_rec s') -> In x (q_rec s)) -> q_poison s' = q_poison s -> traced (h ++ [(e, o)]) s'.
Proof. intros h s s' e o [A B] C D. split; [intros p c I; apply said_more, A, C, I|rewrite D; intro P; apply poison_more, B, P]. Qed.
Lemma tell_poison : forall s p c s', tell_mgr s p c = Some s' -> q_poison s' = q_poison s.
Proof. intros s p c s' T. unfold tell_mgr in T. destruct (q_mgr s); [destruct (_ <? _); [|discriminate]|]; injection T as <-; reflexivity. Qed.
Lemma traced_tell : forall h s s' s2 e o p c, traced h s -> tell_mgr s p c = Some s' -> q_rec s2 = q_rec s' -> q_poison s2 = q_poison s' -> said (h ++ [(e, o)]) p c -> traced (h ++ [(e, o)]) s2.
Proof.
  intros h s s' s2 e o p c [A B] T E1 E2 S. split.
  - intros p' c' I. rewrite E1 in I. destruct (@tell_rec _ _ _ _ T) as (_ & _ & _ & [Q|Q]); rewrite Q in I; [apply said_more, A, I|].
    apply in_app_or in I as [I|[I|[]]]; [apply said_more, A, I|injection I as <- <-; exact S].
  - rewrite E2, (@tell_poison _ _ _ _ T). intro P. apply poison_more, B, P.
Qed.
Lemma traced_step : forall h s e s' o, cinv hashes h s -> traced h s -> step s e = Some (s', o) -> traced (h ++ [(e, o)]) s'.
Proof.
  intros h s e s' o I T S.
  assert (NTH : forall i x, nth_error (q_cons s) i = Some x -> nth_error (connects (h ++ [(e, o)])) i = Some (pc_peer x)).
  { intros i x N. rewrite connects_app, (ci_hist I). apply nth_more. rewrite nth_error_map, N. reflexivity. }
  assert (LAST : In e (map fst (h ++ [(e, o)]))) by (rewrite map_app; apply in_or_app; right; left; reflexivity).
  unfold cstep in S. destruct (q_exit s); [discriminate|]. destruct e.
  - destruct (q_mgr s) as [m|]; [|discriminate]. destruct (m_refresh _ _) as [[[m1 tab] o1]| |]; [destruct (m_assign m1 sent) as [[m2 o2]| |]| |];
    injection S as <- <-; (apply (@traced_more h s); [exact T|cbn; auto|reflexivity]).
  - destruct (q_mgr s) as [m|]; [|discriminate]. destruct (q_rec s) as [|[p c] q] eqn:Q; [discriminate|]. injection S as <- <-. apply (@traced_more h s); [exact T|cbn; intros x X; rewrite Q; right; exact X|reflexivity].
  - destruct (nth_error (q_cons s) i) as [x|] eqn:N; [|discriminate]. destruct (_ && _); [|discriminate]. destruct ok.
    + injection S as <- <-. apply (@traced_more h s); [exact T|cbn; auto|reflexivity].
    + destruct (tell_mgr s _ _) as [s1|] eqn:E; [|discriminate]. injection S as <- <-. apply (@traced_tell h s s1 _ _ _ (pc_peer x) CUnreachable); auto.
      exists i. split; [apply NTH; auto|]. right. right. auto.
  - destruct (nth_error (q_cons s) i) as [x|] eqn:N; [|discriminate]. destruct (_ && _); [|discriminate].
    destruct (deliver_all _ _ _ _ _ _) as [s1|] eqn:E; [|discriminate]. injection S as <- <-.
    assert (TELL : forall c, con_of_message m = Val c -> deliver_all sha usize_max cap tcp_port s [ToPeer (pc_peer x) c] = Some s1 -> traced (h ++ [(CRecv i m, [])]) s1).
    { intros c CM D. cbn [deliver_all deliver] in D. destruct (tell_mgr s (pc_peer x) c) as [s2|] eqn:TM; [|discriminate]. injection D as <-.
      apply (@traced_tell h s s2 _ _ _ (pc_peer x) c); auto. exists i. split; [apply NTH; auto|]. left. exists m. auto. }
    destruct m; try (eapply TELL; [reflexivity|exact E]; fail).
    + cbn in E. injection E as <-. apply (@traced_more h s); auto.
    + cbn [WireModel.handle_message deliver_all deliver] in E. destruct (dht_alive (q_dht s)).
      * destruct (ystep _ _ _ _ _ _) as [[y oo]|]; [|discriminate]. injection E as <-. apply (@traced_more h s); auto.
      * injection E as <-. apply (@traced_more h s); auto.
  - destruct (nth_error (q_cons s) i) as [x|]; [|discriminate]. destruct (_ && _); [|discriminate]. injection S as <- <-. apply (@traced_more h s); auto.
  - destruct (nth_error (q_cons s) i) as [x|]; [|discriminate]. destruct (_ && _); [|discriminate]. injection S as <- <-. apply (@traced_more h s); auto.
  - destruct (nth_error (q_cons s) i) as [x|] eqn:N; [|discriminate]. destruct (pc_dl x); [|discriminate]. injection S as <- <-. destruct T as [A B]. split.
    + cbn. intros p c X. apply said_more, A, X.
    + cbn. destruct (q_poison s); cbn [orb]; [intros _; apply poison_more, B; reflexivity|]. intros ->. exists i, (pc_peer x). auto.
  - destruct (nth_error (q_cons s) i) as [x|] eqn:N; [|discriminate]. destruct (pc_dl x); [|discriminate].
    destruct (tell_mgr s _ _) as [s1|] eqn:E; [|discriminate]. injection S as <- <-. apply (@traced_tell h s s1 _ _ _ (pc_peer x) (CFinishedPiece idx d)); auto.
    exists i. split; [apply NTH; auto|]. right. left. eauto.
  - destruct (nth_error (q_cons s) i) as [x|]; [|discriminate]. destruct (q_mgr s); [discriminate|]. destruct (_ && _); [|discriminate]. injection S as <- <-. apply (@traced_more h s); auto.
  - destruct (dht_ok s e); [|discriminate]. destruct (ystep _ _ _ _ _ _) as [[y oo]|]; [|discriminate]. injection S as <- <-. apply (@traced_more h s); auto.
  - destruct (nth_error cfgs i); [|discriminate]. destruct (nth_error (q_trk s) i); [|discriminate]. destruct (trk_ok s e); [|discriminate].
    destruct (session_step _ _ _ _ _) as [[y oo]|]; [|discriminate]. injection S as <- <-. apply (@traced_more h s); auto.
  - destruct (q_sig s); [discriminate|]. injection S as <- <-. apply (@traced_more h s); auto.
  - destruct (_ && _); [|discriminate]. injection S as <- <-. apply (@traced_more h s); auto.
  - injection S as <- <-. apply (@traced_more h s); auto.
Qed.
Lemma traced_run : forall own secret info fs_ok t now es s h, run (client_start cfgs own secret info hashes fs_ok t now) es = Some (s, h) -> traced h s.
Proof.
  intros own secret info fs_ok t now es s h R.
  assert (G : forall es s1 h1 s2 h2, cinv hashes h1 s1 -> traced h1 s1 -> run s1 es = Some (s2, h2) -> traced (h1 ++ h2) s2).
  { clear. induction es as [|e es IH]; intros s1 h1 s2 h2 I T R; cbn [crun] in R.
    - injection R as <- <-. rewrite app_nil_r. exact T.
    - destruct (cstep _ _ _ _ _ s1 e) as [[s3 o]|] eqn:S; [|discriminate]. destruct (crun _ _ _ _ _ s3 es) as [[s4 h4]|] eqn:R4; [|discriminate]. injection R as <- <-.
      replace (h1 ++ (e, o) :: h4) with ((h1 ++ [(e, o)]) ++ h4) by (rewrite <- app_assoc; reflexivity).
      apply (IH s3 _ s4 h4); [eapply cinv_step; eauto|eapply traced_step; eauto|exact R4]. }
  apply (G es _ [] s h (cinv_start sha cfgs hashes own secret info fs_ok t now)); [|exact R]. split; [intros p c []|discriminate].
Qed.
(** So it is one peer's doing every time. *)
Theorem C94_blame : forall own secret info fs_ok t now es s h m e s' o, run (client_start cfgs own secret info hashes fs_ok t now) es = Some (s, h) ->
  q_mgr s = Some m -> step s e = Some (s', o) -> q_mgr s' = None ->
  exists i p, nth_error (connects h) i = Some p /\
  ((exists w c, In (CRecv i w) es /\ con_of_message w = Val c /\ FatalProps.fatal (length hashes) m p c) \/ (exists idx d, In (CDone i idx d) es) \/ In (CDlPanic i true) es).
Proof.
  intros own secret info fs_ok t now es s h m e s' o R M S N.
  pose proof (@traced_run _ _ _ _ _ _ _ _ _ R) as [A B]. pose proof (@crun_events sha usize_max cap tcp_port cfgs _ _ _ _ R) as EV.
  apply (@C94_exact _ _ _ _ _ _ _ _ _ _ _ _ _ R M S) in N. destruct N as [[_ (p & c & q & Q & F)]|(sent & _ & P & _)].
  - destruct (A p c) as (i & X & Y); [rewrite Q; left; reflexivity|]. exists i, p. split; auto. rewrite EV in Y.
    destruct Y as [(w & Y & Z)|[(idx & d & _ & Y)|(-> & _)]]; [left; exists w, c; auto|right; left; eauto|destruct F].
  - destruct (B P) as (i & p & X & Y). exists i, p. rewrite EV in Y. auto.
Qed.
End client.

(** A peer sends a cancel, and the manager ends when it takes it; a downloader
    panics with the mutex held, and the manager ends when it hands out the next
    piece. *)
Example C94_exact_example : exists s h m s' o, crun (fun x => x) 100 CAPS 6881 [ex_cfg] (ex_client ex_own) (ex_meet ++ [CRecv 0 (Cancel (mk_request 0 0 16384))]) = Some (s, h) /\
  q_mgr s = Some m /\ cstep (fun x => x) 100 CAPS 6881 [ex_cfg] s CTake = Some (s', o) /\ q_mgr s' = None /\ takes_fatal 1 s m CTake.
Proof.
  eexists _, _, _, _, _. split; [vm_compute; reflexivity|]. split; [reflexivity|]. split; [vm_compute; reflexivity|]. split; [reflexivity|].
  split; [reflexivity|]. eexists _, _, _. split; [reflexivity|]. exact I.
Qed.
Example C94_poison_example : exists s h m s' o, crun (fun x => x) 100 CAPS 6881 [ex_cfg] (ex_client ex_own) (ex_meet ++ [CRecv 0 (Have 0); CTake; CRecv 0 Unchoke; CTake; CDlPanic 0 true]) = Some (s, h) /\
  q_mgr s = Some m /\ cstep (fun x => x) 100 CAPS 6881 [ex_cfg] s (CTick (fun _ => true)) = Some (s', o) /\ q_mgr s' = None /\ hands_poisoned s m (CTick (fun _ => true)).
Proof.
  eexists _, _, _, _, _. split; [vm_compute; reflexivity|]. split; [reflexivity|]. split; [vm_compute; reflexivity|]. split; [reflexivity|].
  eexists. split; [reflexivity|]. split; [reflexivity|]. eexists _, _, _, _, _, _, _, _. split; [vm_compute; reflexivity|]. split; [vm_compute; reflexivity|]. left. reflexivity.
Qed.

Print Assumptions C94_exact.
Print Assumptions C94_blame.
