(** C66 and C67 exactly, in terms of what the manager did before: which peers it
    contacts, which pieces are active and who works on them. *)
From Coq Require Import List NArith ZArith Lia Bool Arith Permutation.
From Coq Require Import Init.Byte.
From Verif Require Import Base Assoc BitSpec BitmapModel BitmapProofs IdModel WireModel PeersModel PeersSpec PeersProofs PeersProps ManagerModel ManagerSpec ManagerProofs ManagerProofs2 ManagerProps.
Import ListNotations.
Set Implicit Arguments.

(** ** The vocabulary: histories only *)
(** Tasks for peer [p] were started. *)
Definition contacted (h : list (mevent * list mout)) (p : addr) : Prop := exists e out, In (e, out) h /\ In (OSpawn p) out.
(** The downloader of [p] was told to fetch piece [i]. *)
Definition told (h : list (mevent * list mout)) (p : addr) (i : nat) : Prop := exists e out k, In (e, out) h /\ In (OStart p k i) out.
(** [p] was reported gone. *)
Definition reported_gone (h : list (mevent * list mout)) (p : addr) : Prop := exists c out, In (EMsg p c, out) h /\ (c = CUnreachable \/ c = CDisconnected).
(** [p] is active and marked as working on [i]. *)
Definition works (m : mgr) (p : addr) (i : nat) : Prop := exists inf, In (p, inf) (m_active m) /\ piece_in (pi_working inf) i.

(** ** Proofs *)
Definition wkb (m : mgr) (p : addr) (i : nat) : bool := match aget p (m_active m) with Some inf => piece_inb (pi_working inf) i | None => false end.
Definition started (p : addr) (i : nat) (o : mout) : bool := match o with OStart q _ j => addr_eqb p q && (i =? j) | OSpawn _ => false end.
Definition piece_started (i : nat) (o : mout) : bool := match o with OStart _ _ j => i =? j | OSpawn _ => false end.
Lemma wkb_works : forall m p i, NoDup (map fst (m_active m)) -> (wkb m p i = true <-> works m p i).
Proof.
  intros m p i N. unfold wkb, works. split.
  - destruct (aget p (m_active m)) as [inf|] eqn:E; [|discriminate]. intro H. exists inf. split; [apply aget_spec; auto|apply inb_in; auto].
  - intros (inf & A & B). apply aget_spec in A; auto. rewrite A. apply inb_in. auto.
Qed.
Lemma started_in : forall p i out, existsb (started p i) out = true <-> exists k, In (OStart p k i) out.
Proof.
  intros p i out. rewrite existsb_exists. split.
  - intros ([q|q k j] & A & B); cbn in B; [discriminate|]. apply andb_true_iff in B as [B C]. apply addr_eqb_spec in B. apply Nat.eqb_eq in C. subst. eauto.
  - intros (k & A). exists (OStart p k i). split; auto. cbn. rewrite Nat.eqb_refl, (proj2 (addr_eqb_spec p p) eq_refl). auto.
Qed.
Lemma piece_started_in : forall i out, existsb (piece_started i) out = true <-> exists p k, In (OStart p k i) out.
Proof.
  intros i out. rewrite existsb_exists. split.
  - intros ([q|q k j] & A & B); cbn in B; [discriminate|]. apply Nat.eqb_eq in B. subst. eauto.
  - intros (p & k & A). exists (OStart p k i). split; auto. cbn. apply Nat.eqb_refl.
Qed.
Lemma addr_rfl : forall p, addr_eqb p p = true.
Proof. intro p. apply addr_eqb_spec. auto. Qed.
Lemma addr_sym : forall p q, addr_eqb p q = addr_eqb q p.
Proof. intros p q. destruct (addr_eqb q p) eqn:E; [apply addr_eqb_spec in E; subst; apply addr_rfl|]. destruct (addr_eqb p q) eqn:F; auto. apply addr_eqb_spec in F. subst. rewrite addr_rfl in E. discriminate. Qed.
Lemma aget_aset : forall q p inf a, aget q (aset p inf a) = if addr_eqb q p then Some inf else aget q a.
Proof.
  intros q p inf a. unfold aget, aset. destruct (addr_eqb q p) eqn:E.
  - apply addr_eqb_spec in E. subst. apply (mget_mset_same _ addr_eqb_spec).
  - apply (@mget_mset_other _ _ _ addr_eqb_spec). intros ->. rewrite addr_rfl in E. discriminate.
Qed.
Lemma aget_adel : forall q p a, NoDup (map fst a) -> aget q (adel p a) = if addr_eqb q p then None else aget q a.
Proof.
  intros q p a N. unfold aget, adel. destruct (addr_eqb q p) eqn:E.
  - apply addr_eqb_spec in E. subst. apply (mget_mdel_same _ addr_eqb_spec). auto.
  - apply (@mget_mdel_other _ _ _ addr_eqb_spec). intros ->. rewrite addr_rfl in E. discriminate.
Qed.
(** Replacing what is known of a peer, but for the pieces it works on. *)
Lemma wkb_same : forall m p o inf q i, aget p (m_active m) = Some o -> pi_working inf = pi_working o ->
  wkb (with_active m (aset p inf (m_active m))) q i = wkb m q i.
Proof.
  intros m p o inf q i G W. unfold wkb. cbn [with_active m_active]. rewrite aget_aset. destruct (addr_eqb q p) eqn:E; auto.
  apply addr_eqb_spec in E. subst. rewrite G, W. auto.
Qed.
Lemma wkb_freq : forall m f q i, wkb (with_freq m f) q i = wkb m q i.
Proof. reflexivity. Qed.
Lemma message_wk : forall n m p c m', inv n m -> handle_message m p c = Val m' ->
  m_pieces m' = m_pieces m /\ forall q i, wkb m' q i = if peer_gone c && addr_eqb q p then false else wkb m q i.
Proof.
  intros n m p c m' I H.
  assert (GONE : forall st, mark_inactive m p st = Val m' -> m_pieces m' = m_pieces m /\ forall q i, wkb m' q i = if addr_eqb q p then false else wkb m q i).
  { intros st. unfold mark_inactive. destruct (aget p (m_active m)) as [o|] eqn:G.
    - destruct (bm_bits _); try discriminate. cbn [rbind]. destruct (freq_dec _ _); try discriminate. cbn. intro X. injection X as <-. split; auto.
      intros q i. unfold wkb. cbn [with_freq with_inactive with_active m_active]. rewrite aget_adel by apply (i_nodup I). destruct (addr_eqb q p); auto.
    - intro X. injection X as <-. split; auto. intros q i. destruct (addr_eqb q p) eqn:E; auto. apply addr_eqb_spec in E. subst. unfold wkb. rewrite G. auto. }
  assert (MOD : forall f, (forall x, pi_working (f x) = pi_working x) -> m' = modify m p f -> m_pieces m' = m_pieces m /\ forall q i, wkb m' q i = wkb m q i).
  { intros f F ->. unfold modify. destruct (aget p (m_active m)) as [o|] eqn:G; auto. split; auto. intros q i. apply (@wkb_same m p o); auto. }
  destruct c; cbn [handle_message peer_gone andb] in *; try discriminate; eauto.
  - injection H as <-. auto.
  - injection H as <-. eapply MOD; [|reflexivity]. auto.
  - injection H as <-. eapply MOD; [|reflexivity]. auto.
  - injection H as <-. eapply MOD; [|reflexivity]. auto.
  - injection H as <-. eapply MOD; [|reflexivity]. auto.
  - unfold handle_have in H. destruct (aget p (m_active m)) as [o|] eqn:G; [|injection H as <-; auto]. destruct (bm_change _ _ _) as [[b v]| |]; try discriminate. cbn [rbind fst snd] in H.
    destruct v; [injection H as <-|destruct (freq_inc _ _); try discriminate; cbn in H; injection H as <-]; (split; [reflexivity|intros q j; rewrite ?wkb_freq; apply (@wkb_same m p o); auto]).
  - unfold accept_bitfield in H. destruct (aget p (m_active m)) as [o|] eqn:G; [|injection H as <-; auto]. destruct (N.ltb _ _); [injection H as <-; auto|].
    destruct (bm_replace_data _ _) as [d| |]; try discriminate; [|injection H as <-; auto]. destruct (bm_bits d); try discriminate. cbn [rbind] in H. destruct (freq_add _ _ _); try discriminate. cbn in H. injection H as <-.
    split; [reflexivity|]. intros q j. rewrite wkb_freq. apply (@wkb_same m p o); auto.
Qed.
Lemma add_wk : forall ps m m' out, add_peers m ps = Val (m', out) -> 
  (forall q i, wkb m' q i = if existsb (addr_eqb q) ps then false else wkb m q i).
Proof.
  induction ps as [|p ps IH]; intros m m' out H q i; cbn [add_peers] in H; [injection H as <- <-; auto|].
  destruct (pi_new (bm_len (m_local m))) as [inf| |] eqn:P; try discriminate. cbn [rbind] in H.
  destruct (add_peers _ ps) as [[m1 o1]| |] eqn:A; try discriminate. cbn in H. injection H as <- <-. rewrite (IH _ _ _ A). cbn [existsb].
  destruct (existsb (addr_eqb q) ps); [rewrite orb_true_r; auto|]. rewrite orb_false_r. unfold wkb. cbn [with_active m_active]. rewrite aget_aset.
  destruct (addr_eqb q p); auto. unfold pi_new in P. destruct (bm_new _) as [b| |] eqn:B; try discriminate. cbn [rbind] in P. injection P as <-. cbn [pi_working].
  apply bm_ok_new in B as (_ & B & _). rewrite inb_nth, B. apply nth_repeat.
Qed.
Lemma mark_wk : forall n m p i m', inv n m -> In p (map fst (m_active m)) -> mark_ongoing m p i = Val m' ->
  (forall q j, wkb m' q j = addr_eqb q p && (j =? i) || wkb m q j) /\ (forall j, piece_inb (m_pieces m') j = (j =? i) || piece_inb (m_pieces m) j).
Proof.
  intros n m p i m' I K H. unfold mark_ongoing in H. destruct (aget p (m_active m)) as [o|] eqn:G; [|apply aget_none in G; tauto]. cbn [rbind] in H.
  destruct (bm_change (m_pieces m) i true) as [[b old]| |] eqn:E; try discriminate. cbn [rbind] in H.
  destruct (bm_change (pi_working o) i true) as [[w oldw]| |] eqn:Ew; try discriminate. cbn [rbind fst] in H. injection H as <-.
  destruct (@inb_change _ _ _ _ _ E) as (_ & _ & J). destruct (@inb_change _ _ _ _ _ Ew) as (_ & _ & Jw). split.
  - intros q j. unfold wkb. cbn [with_pieces with_active m_active]. rewrite aget_aset. destruct (addr_eqb q p) eqn:Q; auto. cbn [pi_working andb].
    apply addr_eqb_spec in Q. subst q. rewrite G, Jw. destruct (j =? i); auto.
  - intro j. cbn [with_pieces with_active m_pieces]. rewrite J. destruct (j =? i); auto.
Qed.
Lemma assign_wk : forall k n m sent m' out, inv n m -> N.to_nat (bm_weight (m_pieces m)) + k <= 9 -> assign_loop m sent k = Val (m', out) ->
  (forall q j, wkb m' q j = existsb (started q j) out || wkb m q j) /\ (forall j, piece_inb (m_pieces m') j = existsb (piece_started j) out || piece_inb (m_pieces m) j).
Proof.
  induction k as [|k IH]; intros n m sent m' out I L H; cbn [assign_loop] in H; [injection H as <- <-; auto|].
  destruct (select_exact I) as (r & E & R). rewrite E in H. cbn [rbind] in H. destruct r as [[[p i] h]|]; [|injection H as <- <-; auto].
  destruct R as (W & LE & HH & (inf & IN & _)). assert (KP : In p (map fst (m_active m))) by (apply (in_map fst) in IN; auto).
  unfold start_piece in H. destruct (existsb (addr_eqb p) (m_conn m) && sent k) eqn:X.
  - destruct (@mark_spec n m p i I KP) as (m1 & E1 & I1 & _ & _ & _ & _ & _ & _ & W1 & _).
    { destruct W as (_ & B & _). rewrite (bo_len (i_local I)) in B. auto. } { lia. }
    rewrite E1 in H. cbn [rmap rbind fst snd] in H. destruct (assign_loop m1 sent k) as [[m2 o2]| |] eqn:A; try discriminate. cbn in H. injection H as <- <-.
    destruct (IH n m1 sent m2 o2 I1 ltac:(lia) A) as [A1 A2]. destruct (mark_wk p i I KP E1) as [B1 B2]. split.
    + intros q j. rewrite A1, B1. cbn [app existsb started]. destruct (addr_eqb q p && (j =? i)), (existsb (started q j) o2); auto.
    + intro j. rewrite A2, B2. cbn [app existsb piece_started]. destruct (j =? i), (existsb (piece_started j) o2); auto.
  - cbn [rbind fst snd] in H. destruct (assign_loop m sent k) as [[m2 o2]| |] eqn:A; try discriminate. cbn in H. injection H as <- <-.
    apply (IH n m sent m2 o2 I ltac:(lia) A).
Qed.
(** No refresh names a peer twice while nobody announces active ones. *)
Lemma calm_disjoint : forall n m t t' ps, calm_inv n (m, t) -> q_batch t (m_inactive m) (10 - length (m_active m)) = Val (t', ps) ->
  forall p, In p ps -> ~ In p (map fst (m_active m)).
Proof.
  intros n m t t' ps C EB. destruct (k_inv C) as [I N]. pose proof (k_active C) as KA. pose proof (k_inactive C) as KI. cbn [fst snd] in *.
  destruct (@C25_batch t (m_inactive m) (10 - length (m_active m)) N) as (t1 & t2 & ps2 & EB2 & N1 & ST & G). rewrite EB in EB2. injection EB2 as <- <-.
  intros p Hp Ha. destruct (gb_eligible G _ Hp) as (st & r & S & R).
  assert (A : status_of t1 p Active).
  { apply ST. destruct (last_returned (m_inactive m) p) as [x|] eqn:LR; [|auto]. exfalso. assert (Z : exists y, In (p, y) (m_inactive m)).
    { clear - LR. unfold last_returned in LR. revert LR. generalize (m_inactive m). intro l.
      induction l as [|[q sq] l IH] using rev_ind; cbn; [discriminate|]. rewrite fold_left_app. cbn [fold_left fst snd].
      destruct (addr_eqb q p) eqn:EQ; [|intro LR; destruct (IH LR) as [y Hy]; exists y; apply in_or_app; auto].
      apply addr_eqb_spec in EQ. subst. intros _. exists sq. apply in_or_app. right. left. auto. }
    destruct Z as [y Hy]. apply (KI _ _ Hy Ha). }
  pose proof (@status_fun _ _ _ _ N1 S A). subst st. discriminate.
Qed.
Lemma refresh_wk : forall n m t m' t' out, inv n m -> NoDup (map fst t) -> m_refresh m t = Val (m', t', out) ->
  (forall q i, wkb m' q i = true -> wkb m q i = true) /\ (calm_inv n (m, t) -> forall q i, wkb m' q i = wkb m q i) /\ m_pieces m' = m_pieces m /\
  (forall q, In q (m_conn m') <-> In (OSpawn q) out \/ In q (m_conn m)) /\ existsb (fun o => match o with OStart _ _ _ => true | _ => false end) out = false.
Proof.
  intros n m t m' t' out I N H. destruct (@refresh_spec n m t I N) as (m2 & t2 & o2 & H2 & _ & _ & P & D). rewrite H in H2. injection H2 as <- <- <-.
  destruct D as [D|(ps & EB & ND & _ & K & _ & C & S)].
  { injection D as -> -> ->. split; auto. split; auto. split; auto. split; [|reflexivity]. intro q. cbn. tauto. }
  unfold m_refresh in H. change MAX_ACTIVE_PEERS with 10 in H. destruct (10 <? _); try discriminate. destruct (_ =? 0) eqn:Z.
  { injection H as <- <- <-. split; auto. split; auto. split; auto. split; [|reflexivity]. intro q. cbn. tauto. }
  rewrite EB in H. cbn [rbind fst snd] in H. destruct (add_peers (with_inactive m []) ps) as [[m1 o1]| |] eqn:A; try discriminate. cbn in H. injection H as <- <-.
  pose proof (add_wk _ _ A) as W. split; [|split; [|split; [|split]]]; auto.
  - intros q i. rewrite W. destruct (existsb (addr_eqb q) ps); [discriminate|auto].
  - intros CI q i. rewrite W. destruct (existsb (addr_eqb q) ps) eqn:E; auto. apply existsb_addr in E. pose proof (calm_disjoint CI EB _ E) as NA.
    unfold wkb. apply aget_none in NA. rewrite NA. auto.
  - intro q. rewrite C. split.
    + intros [X|X]; auto. destruct (in_dec addr_dec q (m_conn m)) as [Y|Y]; auto. left. clear - A X Y.
      assert (G : forall ps m m' o, add_peers m ps = Val (m', o) -> In q ps -> ~ In q (m_conn m) -> In (OSpawn q) o).
      { clear. induction ps as [|p ps IH]; intros m m' o A X Y; [destruct X|]. cbn [add_peers] in A. destruct (pi_new _) as [i| |]; try discriminate. cbn [rbind] in A.
        destruct (add_peers _ ps) as [[m1 o1]| |] eqn:E; try discriminate. cbn in A. injection A as <- <-. apply in_or_app. destruct (addr_dec q p) as [->|NE].
        - left. unfold c_connect. destruct (existsb (addr_eqb p) (m_conn m)) eqn:Z; [apply existsb_addr in Z; tauto|left; auto].
        - right. destruct X as [->|X]; [congruence|]. eapply IH; eauto. cbn [with_active with_conn m_conn]. unfold c_connect. destruct (existsb _ _); cbn; intuition congruence. }
      eapply G; eauto.
    + intros [X|X]; auto. destruct (S _ X) as (q' & Y & Z1 & _). injection Y as <-. auto.
  - clear - S. assert (F : forall o, In o o1 -> exists p, o = OSpawn p) by (intros o X; destruct (S _ X) as (q & -> & _); eauto). clear S.
    induction o1 as [|x o1 IH]; cbn; auto. destruct (F x) as [p ->]; [left; auto|]. apply IH. intros o X. apply F. right. auto.
Qed.
Lemma no_starts : forall f out, (forall p, f (OSpawn p) = false) -> existsb (fun o => match o with OStart _ _ _ => true | _ => false end) out = false -> existsb f out = false.
Proof. intros f out F. induction out as [|[p|p k i] t IH]; cbn; auto; [rewrite F; auto|discriminate]. Qed.

(** One step. *)
Lemma step_hist : forall n s e s' out, sys_inv n s -> sys_step s e = Val (s', out) ->
  (forall j, piece_inb (m_pieces (fst s')) j = existsb (piece_started j) out || piece_inb (m_pieces (fst s)) j) /\
  (forall q, In q (m_conn (fst s')) <-> In (OSpawn q) out \/ In q (m_conn (fst s))) /\
  (forall q j, wkb (fst s') q j = true -> existsb (started q j) out = true \/ wkb (fst s) q j = true) /\
  (forall q j, calm_inv n s -> existsb (started q j) out || wkb (fst s) q j = true -> (forall c, e = EMsg q c -> peer_gone c = false) -> wkb (fst s') q j = true).
Proof.
  intros n [m t] e s' out [I N] E. cbn [fst snd] in *. destruct e as [p c| |f|o]; cbn [sys_step fst snd] in E.
  - destruct (handle_message m p c) as [m'| |] eqn:H; try discriminate. injection E as <- <-. destruct (message_wk p c I H) as [P W].
    destruct (@message_inv n m p c m' I H) as (_ & _ & C & _). cbn [fst existsb orb]. split; [intro; rewrite P; auto|]. split; [intro; rewrite C; cbn; tauto|]. split.
    + intros q j. rewrite W. destruct (_ && _); [discriminate|auto].
    + intros q j _ X Y. rewrite W. destruct (peer_gone c) eqn:GC; auto. cbn [andb]. destruct (addr_eqb q p) eqn:Q; auto. apply addr_eqb_spec in Q. subst. rewrite (Y c) in GC by auto. discriminate.
  - destruct (m_refresh m t) as [[[m' t'] o']| |] eqn:H; try discriminate. injection E as <- <-. destruct (@refresh_wk n _ _ _ _ _ I N H) as (W & WC & P & C & S). cbn [fst snd].
    split; [intro; rewrite P, no_starts; auto|]. split; [auto|]. split; [auto|]. intros q j CI X _. rewrite no_starts in X by auto. rewrite WC; auto.
  - destruct (m_assign m f) as [[m' o']| |] eqn:H; try discriminate. injection E as <- <-. cbn [fst snd].
    destruct (@m_assign_spec n m f I) as (m2 & o2 & H2 & _ & _ & _ & _ & C & _ & _ & _ & O). rewrite H in H2. injection H2 as <- <-.
    unfold m_assign in H. change MAX_ACTIVE_PIECES with 9 in H. destruct (9 <? _) eqn:L; try discriminate. apply Nat.ltb_ge in L.
    destruct (@assign_wk (9 - N.to_nat (bm_weight (m_pieces m))) n m f m' o' I ltac:(lia) H) as [A B]. split; [auto|]. split; [|split].
    + intro q. rewrite C. split; auto. intros [X|X]; auto. destruct (O _ X) as (? & ? & ? & Y & _). discriminate.
    + intros q j. rewrite A. intro X. apply orb_true_iff in X. tauto.
    + intros q j _ X _. rewrite A. auto.
  - destruct (q_step t o) as [[t' o']| |] eqn:H; try discriminate. injection E as <- <-. cbn. split; auto. split; [intro; tauto|]. split; auto.
Qed.
Lemma wkb_perm : forall n s s1, sys_inv n s -> sys_perm s s1 -> forall q j, wkb (fst s1) q j = wkb (fst s) q j.
Proof.
  intros n s s1 SI P q j. pose proof (perm_inv SI P) as [I1 _]. destruct SI as [I _]. pose proof (i_nodup I). pose proof (i_nodup I1).
  assert (X : wkb (fst s1) q j = true <-> wkb (fst s) q j = true).
  { rewrite !wkb_works by auto. unfold works. destruct P as (a & t & P & _ & ->). cbn [fst with_active m_active]. split; intros (inf & A & B); exists inf; split; auto.
    - eapply Permutation_in; [apply Permutation_sym|]; eauto.
    - eapply Permutation_in; eauto. }
  destruct (wkb (fst s1) q j), (wkb (fst s) q j); auto; [symmetry; tauto|tauto].
Qed.
Lemma run_hist : forall n s h s', sys_run s h s' -> sys_inv n s ->
  (forall j, piece_in (m_pieces (fst s')) j <-> (exists p, told h p j) \/ piece_in (m_pieces (fst s)) j) /\
  (forall q, In q (m_conn (fst s')) <-> contacted h q \/ In q (m_conn (fst s))) /\
  (forall q j, wkb (fst s') q j = true -> told h q j \/ wkb (fst s) q j = true).
Proof.
  induction 1 as [|s s1 e s2 out h s' P E R IH]; intro SI.
  - split; [|split]; auto.
    + intro j. split; auto. intros [(p & e & o & k & [] & _)|]; auto.
    + intro q. split; auto. intros [(e & o & [] & _)|]; auto.
  - pose proof (perm_inv SI P) as S1. pose proof (step_inv _ S1 E) as S2. destruct (step_hist _ S1 E) as (A & B & C & _). destruct (IH S2) as (A' & B' & C').
    pose proof (wkb_perm SI P) as WP. assert (MP : m_pieces (fst s1) = m_pieces (fst s) /\ m_conn (fst s1) = m_conn (fst s)) by (destruct P as (a & t & _ & _ & ->); auto). destruct MP as [MP MC].
    split; [|split].
    + intro j. rewrite A', <- !inb_in, A, MP, orb_true_iff, piece_started_in. unfold told. split.
      * intros [(p & e' & o & k & X & Y)|[(p & k & X)|X]]; auto; left; exists p; [exists e', o, k; split; auto; right; auto|exists e, out, k; split; auto; left; auto].
      * intros [(p & e' & o & k & [X|X] & Y)|X]; auto; [injection X as <- <-; eauto|left; eauto 8].
    + intro q. rewrite B', B, MC. unfold contacted. split.
      * intros [(e' & o & X & Y)|[X|X]]; auto; left; [exists e', o; split; auto; right; auto|exists e, out; split; auto; left; auto].
      * intros [(e' & o & [X|X] & Y)|X]; auto; [injection X as <- <-; auto|left; eauto].
    + intros q j X. destruct (C' q j X) as [(e' & o & k & Y & Z)|Y]; [left; exists e', o, k; split; auto; right; auto|].
      destruct (C q j Y) as [Z|Z]; [|right; rewrite <- WP; auto]. apply started_in in Z as [k Z]. left. exists e, out, k. split; auto. left. auto.
Qed.
Lemma calm_wk : forall n s h s', calm_run s h s' -> calm_inv n s -> forall p i, wkb (fst s) p i = true -> ~ reported_gone h p -> wkb (fst s') p i = true.
Proof.
  induction 1 as [|s s1 e s2 out h s' P Q E R IH]; intros CI p i W NG; auto.
  pose proof (perm_calm CI P) as C1. apply IH; [eapply step_calm; eauto| |].
  - destruct (step_hist _ (k_inv C1) E) as (_ & _ & _ & D). apply D; auto.
    + rewrite (wkb_perm (k_inv CI) P), W. apply orb_true_r.
    + intros c ->. destruct (peer_gone c) eqn:G; auto. exfalso. apply NG. exists c, out. split; [left; auto|]. destruct c; try discriminate; auto.
  - intros (c & o & X & Y). apply NG. exists c, o. split; auto. right. auto.
Qed.
Lemma calm_split : forall s h s', calm_run s h s' -> forall a e out b, h = a ++ (e, out) :: b -> exists s1 s2 s3, calm_run s a s1 /\ sys_perm s1 s2 /\
  sys_step s2 e = Val (s3, out) /\ (forall o p, e = ETable o -> In p (names o) -> ~ In p (map fst (m_active (fst s2)))) /\ calm_run s3 b s'.
Proof.
  induction 1 as [|s s1 e s2 out h s' P Q E R IH]; intros a e0 out0 b EQ; [destruct a; discriminate|].
  destruct a as [|x a]; cbn [app] in EQ.
  - injection EQ as -> -> ->. exists s, s1, s2. split; [constructor|]. auto.
  - injection EQ as <- EQ. destruct (IH _ _ _ _ EQ) as (u & v & w & A & B & C & D & F). exists u, v, w. split; auto. econstructor; eauto.
Qed.

(** ** C66 *)
(** A peer that gets a slot is contacted exactly if it never was before. *)
Theorem C66_exact : forall hs s0 h s s' out p, sys_start hs s0 -> sys_run s0 h s -> sys_step s ERefresh = Val (s', out) ->
  In p (map fst (m_active (fst s'))) -> ~ In p (map fst (m_active (fst s))) -> (In (OSpawn p) out <-> ~ contacted h p).
Proof.
  intros hs s0 h s s' out p A R E X Y. pose proof (k_inv (start_inv A)) as SI. destruct (run_hist R SI) as (_ & C & _). pose proof (run_inv R SI) as S1.
  assert (M0 : m_conn (fst s0) = []). { destruct A as (m & M & ->). unfold m_init in M. destruct (bm_new _); try discriminate. injection M as <-. auto. }
  specialize (C p). rewrite M0 in C. split.
  - intros O CO. destruct (step_conn _ S1 E) as [K _]. destruct (K p) as [_ K2]; [apply C; auto|]. auto.
  - intro NC. eapply (@C66_new_peers_contacted_partial hs s s' out p); eauto; [exists s0, h; auto|]. intro Z. apply C in Z as [Z|[]]. auto.
Qed.

(** ** C67 *)
(** Active pieces are exactly those somebody was told to fetch, ever; and who
    works on a piece was told to. *)
Theorem C67_exact : forall hs s0 h s, sys_start hs s0 -> sys_run s0 h s ->
  (forall i, piece_in (m_pieces (fst s)) i <-> exists p, told h p i) /\ (forall p i, works (fst s) p i -> told h p i).
Proof.
  intros hs s0 h s A R. pose proof (k_inv (start_inv A)) as SI. destruct (run_hist R SI) as (P & _ & W). pose proof (run_inv R SI) as [I _].
  destruct A as (m & M & ->). cbn [fst] in *. unfold m_init in M. destruct (bm_new _) as [b| |] eqn:B; try discriminate. cbn in M. injection M as <-. cbn [m_pieces m_active] in *.
  apply bm_ok_new in B as (_ & B & _). split.
  - intro i. rewrite P. split; auto. intros [X|X]; auto. apply inb_in in X. rewrite inb_nth, B, nth_repeat in X. discriminate.
  - intros p i X. apply wkb_works in X; [|apply (i_nodup I)]. destruct (W _ _ X) as [Y|Y]; auto. discriminate.
Qed.
(** If nobody announces peers that are active, a peer told to fetch a piece is
    working on it until it is reported gone. *)
Theorem C67_working : forall hs s0 a e out b s p k i, sys_start hs s0 -> calm_run s0 (a ++ (e, out) :: b) s -> In (OStart p k i) out -> ~ reported_gone b p ->
  works (fst s) p i.
Proof.
  intros hs s0 a e out b s p k i A R O G. destruct (calm_split R _ _ _ _ eq_refl) as (u & v & w & Ra & P & E & Q & Rb).
  pose proof (calm_run_inv Ra (start_inv A)) as Cu. pose proof (perm_calm Cu P) as Cv. pose proof (step_calm Cv E Q) as Cw.
  pose proof (calm_run_inv Rb Cw) as Cs. apply wkb_works; [apply (i_nodup (proj1 (k_inv Cs)))|]. eapply calm_wk; eauto.
  destruct (step_hist _ (k_inv Cv) E) as (_ & _ & _ & D). apply D; auto.
  - apply orb_true_iff. left. apply started_in. eauto.
  - intros c ->. exfalso. destruct v as [m t]. cbn in E. destruct (handle_message m p c); try discriminate. cbn in E. injection E as <- <-. destruct O.
Qed.
(** So an active piece without a worker is one all whose peers are gone. *)
Theorem C67_worker_partial : forall hs s0 h s i, sys_start hs s0 -> calm_run s0 h s -> piece_in (m_pieces (fst s)) i ->
  (exists p, works (fst s) p i) \/ forall a e out b p k, h = a ++ (e, out) :: b -> In (OStart p k i) out -> reported_gone b p.
Proof.
  intros hs s0 h s i A R P. pose proof (run_inv (calm_is_run R) (k_inv (start_inv A))) as [I _].
  destruct (existsb (fun x => piece_inb (pi_working (snd x)) i) (m_active (fst s))) eqn:X.
  - left. apply existsb_exists in X as ([p inf] & X & Y). exists p, inf. split; auto. apply inb_in. auto.
  - right. intros a e out b p k -> O.
    assert (D : reported_gone b p \/ ~ reported_gone b p).
    { clear. induction b as [|[e o] b [IH|IH]]; [right; intros (c & o & [] & _)|left; destruct IH as (c & o' & X & Y); exists c, o'; split; auto; right; auto|].
      destruct e as [q c| | |]; try (right; intros (c' & o' & [X|X] & Y); [discriminate|apply IH; exists c', o'; auto]).
      destruct (addr_dec p q) as [->|NE]; [|right; intros (c' & o' & [X|X] & Y); [congruence|apply IH; exists c', o'; auto]].
      destruct (peer_gone c) eqn:G; [left; exists c, o; split; [left; auto|destruct c; try discriminate; auto]|].
      right. intros (c' & o' & [X|X] & Y); [injection X as <- <-; destruct Y as [->| ->]; discriminate|apply IH; exists c', o'; auto]. }
    destruct D as [D|D]; auto. exfalso. destruct (@C67_working _ _ _ _ _ _ _ _ _ _ A R O D) as (inf & Y & Z).
    assert (T : existsb (fun x => piece_inb (pi_working (snd x)) i) (m_active (fst s)) = true) by (apply existsb_exists; exists (p, inf); split; auto; apply inb_in; auto). congruence.
Qed.
(** Met by the history of ManagerProps.v: the first piece is given to a peer. *)
Example C67_example : exists s0 s, sys_start three s0 /\ calm_run s0 (ex_history ++ [(EAssign always, repeat (OStart (pa 1) (hash0 x01) 0) 9)]) s /\ works (fst s) (pa 1) 0.
Proof.
  eexists. eexists. split; [eexists; split; [vm_compute; reflexivity|reflexivity]|]. split.
  - unfold ex_history. cbn [app]. cgo; [intros o p E Hp H; destruct H|]. do 5 (cgo; [intros o p E; discriminate|]). apply cr_nil.
  - eexists. split; [left; reflexivity|]. vm_compute. reflexivity.
Qed.
Print Assumptions C66_exact.
Print Assumptions C67_exact.
Print Assumptions C67_working.
Print Assumptions C67_worker_partial.
