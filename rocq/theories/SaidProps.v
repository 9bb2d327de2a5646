(** C31 in terms of what the peers said: who is told to fetch a piece has last
    said that it does not choke us, and has said that it has the piece. *)
From Coq Require Import List NArith ZArith Lia Bool Arith Permutation.
From Coq Require Import Init.Byte.
From Verif Require Import Base Assoc BitSpec BitmapModel BitmapProofs IdModel WireModel PeersModel PeersSpec PeersProofs PeersProps ManagerModel ManagerSpec ManagerProofs ManagerProofs2 ManagerProps ManagerHistoryProps AvailabilityProps SpreadProps.
Import ListNotations.
Set Implicit Arguments.

(** ** Vocabulary: histories only *)
(** [p] said something [good], and since then nothing [bad]. *)
Definition last_said (h : list (mevent * list mout)) (p : addr) (good bad : con_message -> Prop) : Prop :=
  exists a c out b, h = a ++ (EMsg p c, out) :: b /\ good c /\ forall c' o, In (EMsg p c', o) b -> ~ bad c'.
(** The connection is reported to be gone, or never to have been. *)
Definition gone (c : con_message) : Prop := c = CUnreachable \/ c = CDisconnected.
(** The last word of [p] on the matter was that it does not choke us. *)
Definition unchoked (h : list (mevent * list mout)) (p : addr) : Prop := last_said h p (eq CUnchoke) (fun c => c = CChoke \/ gone c).
(** [p] said that it has piece [i]. *)
Definition claims (i : nat) (c : con_message) : Prop := c = CHave (N.of_nat i) \/ exists d, c = CBitfield d /\ nth_error (bits_of d) i = Some true.
Definition announced (h : list (mevent * list mout)) (p : addr) (i : nat) : Prop := last_said h p (claims i) gone.

(** ** Proofs *)
Definition choke_after (e : mevent) (q : addr) (b : bool) : bool :=
  match e with EMsg p c => if addr_eqb q p then match c with CChoke => true | CUnchoke => false | _ => b end else b | _ => b end.
Definition said_now (e : mevent) (q : addr) (i : nat) : Prop := exists c, e = EMsg q c /\ claims i c.
Lemma mark_same : forall m p i m' q inf', In p (map fst (m_active m)) -> mark_ongoing m p i = Val m' -> aget q (m_active m') = Some inf' ->
  exists inf, aget q (m_active m) = Some inf /\ pi_choking inf' = pi_choking inf /\ pi_haves inf' = pi_haves inf.
Proof.
  intros m p i m' q inf' K H G'. unfold mark_ongoing in H. destruct (aget p (m_active m)) as [o|] eqn:G; [|apply aget_none in G; tauto]. cbn [rbind] in H.
  destruct (bm_change (m_pieces m) i true) as [[b old]| |]; try discriminate. cbn [rbind] in H.
  destruct (bm_change (pi_working o) i true) as [[w oldw]| |]; try discriminate. cbn [rbind fst] in H. injection H as <-.
  cbn [with_pieces with_active m_active] in G'. rewrite aget_aset in G'. destruct (addr_eqb q p) eqn:Q; [|eauto].
  apply addr_eqb_spec in Q. subst q. injection G' as <-. eauto.
Qed.
Lemma assign_same : forall k n m sent m' out, inv n m -> N.to_nat (bm_weight (m_pieces m)) + k <= 9 -> assign_loop m sent k = Val (m', out) ->
  (forall q inf', aget q (m_active m') = Some inf' -> exists inf, aget q (m_active m) = Some inf /\ pi_choking inf' = pi_choking inf /\ pi_haves inf' = pi_haves inf) /\
  forall p h i, In (OStart p h i) out -> offers m p i.
Proof.
  induction k as [|k IH]; intros n m sent m' out I L H; cbn [assign_loop] in H; [injection H as <- <-; split; [eauto|intros p h i []]|].
  destruct (select_exact I) as (r & E & R). rewrite E in H. cbn [rbind] in H. destruct r as [[[p i] h]|]; [|injection H as <- <-; split; [eauto|intros p h i []]].
  destruct R as (W & LE & HH & SP). assert (KP : In p (map fst (m_active m))) by (destruct SP as (inf & IN & _); apply (in_map fst) in IN; auto).
  unfold start_piece in H. destruct (existsb (addr_eqb p) (m_conn m) && sent k) eqn:X.
  - destruct (@mark_spec n m p i I KP) as (m1 & E1 & I1 & _ & _ & _ & _ & _ & _ & W1 & _).
    { destruct W as (_ & B & _). rewrite (bo_len (i_local I)) in B. auto. } { lia. }
    rewrite E1 in H. cbn [rmap rbind fst snd] in H. destruct (assign_loop m1 sent k) as [[m2 o2]| |] eqn:A; try discriminate. cbn in H. injection H as <- <-.
    destruct (IH n m1 sent m2 o2 I1 ltac:(lia) A) as [A1 A2]. destruct (mark_wt p i I KP E1) as (_ & MO & _). split.
    + intros q inf' G. destruct (A1 _ _ G) as (x & G1 & B1 & C1). destruct (@mark_same m p i m1 q x KP E1 G1) as (y & G2 & B2 & C2). exists y. split; auto. split; congruence.
    + intros p' h' j [Y|Y]; [injection Y as <- <- <-; apply suit_offers in SP; [tauto|apply (i_nodup I)]|]. apply MO. eauto.
  - cbn [rbind fst snd] in H. destruct (assign_loop m sent k) as [[m2 o2]| |] eqn:A; try discriminate. cbn in H. injection H as <- <-.
    apply (IH n m sent m2 o2 I ltac:(lia) A).
Qed.
Lemma message_said : forall n m p c m' q inf', inv n m -> handle_message m p c = Val m' -> aget q (m_active m') = Some inf' ->
  exists inf, aget q (m_active m) = Some inf /\ (q = p -> ~ gone c) /\ pi_choking inf' = choke_after (EMsg p c) q (pi_choking inf) /\
    forall i, piece_inb (pi_haves inf') i = true -> piece_inb (pi_haves inf) i = true \/ said_now (EMsg p c) q i.
Proof.
  intros n m p c m' q inf' I H G.
  assert (GONE : forall st, mark_inactive m p st = Val m' -> gone c -> choke_after (EMsg p c) q = (fun b => b) -> exists inf, aget q (m_active m) = Some inf /\ (q = p -> ~ gone c) /\
    pi_choking inf' = choke_after (EMsg p c) q (pi_choking inf) /\ forall i, piece_inb (pi_haves inf') i = true -> piece_inb (pi_haves inf) i = true \/ said_now (EMsg p c) q i).
  { intros st X Y Z. unfold mark_inactive in X. destruct (aget p (m_active m)) as [o|] eqn:GP.
    - destruct (bm_bits _); try discriminate. cbn [rbind] in X. destruct (freq_dec _ _); try discriminate. cbn in X. injection X as <-.
      cbn [with_freq with_inactive with_active m_active] in G. rewrite aget_adel in G by apply (i_nodup I). destruct (addr_eqb q p) eqn:Q; [discriminate|].
      exists inf'. split; auto. split; [intros ->; rewrite addr_rfl in Q; discriminate|]. rewrite Z. auto.
    - injection X as <-. exists inf'. split; auto. split; [intros ->; congruence|]. rewrite Z. auto. }
  assert (SAME : m' = m -> ~ gone c -> choke_after (EMsg p c) q = (fun b => b) -> exists inf, aget q (m_active m) = Some inf /\ (q = p -> ~ gone c) /\
    pi_choking inf' = choke_after (EMsg p c) q (pi_choking inf) /\ forall i, piece_inb (pi_haves inf') i = true -> piece_inb (pi_haves inf) i = true \/ said_now (EMsg p c) q i).
  { intros -> N Z. exists inf'. split; auto. split; auto. rewrite Z. auto. }
  assert (PUT : forall inf o f, aget p (m_active m) = Some o -> m_active m' = aset p inf (m_active m) -> ~ gone c -> pi_choking inf = f (pi_choking o) ->
     (forall b, choke_after (EMsg p c) q b = if addr_eqb q p then f b else b) ->
     (forall i, piece_inb (pi_haves inf) i = true -> piece_inb (pi_haves o) i = true \/ claims i c) ->
     exists inf, aget q (m_active m) = Some inf /\ (q = p -> ~ gone c) /\ pi_choking inf' = choke_after (EMsg p c) q (pi_choking inf) /\
       forall i, piece_inb (pi_haves inf') i = true -> piece_inb (pi_haves inf) i = true \/ said_now (EMsg p c) q i).
  { intros inf o f GO A N C CA HA. rewrite A, aget_aset in G. destruct (addr_eqb q p) eqn:Q.
    - apply addr_eqb_spec in Q. subst q. injection G as <-. exists o. split; auto. split; auto. split; [rewrite C, CA; auto|]. intros i X. destruct (HA i X) as [Y|Y]; auto. right. exists c. auto.
    - exists inf'. auto. }
  assert (ID : forall c', ~ (c' = CChoke \/ c' = CUnchoke) -> choke_after (EMsg p c') q = (fun b => b) /\ forall b, choke_after (EMsg p c') q b = if addr_eqb q p then b else b).
  { intros c' N. unfold choke_after. destruct (addr_eqb q p); [|split; auto]. destruct c'; try (split; reflexivity); exfalso; apply N; auto. }
  assert (MOD : forall f g, m' = modify m p f -> ~ gone c -> (forall x, pi_choking (f x) = g (pi_choking x)) -> (forall x, pi_haves (f x) = pi_haves x) ->
     (forall b, choke_after (EMsg p c) q b = if addr_eqb q p then g b else b) ->
     exists inf, aget q (m_active m) = Some inf /\ (q = p -> ~ gone c) /\ pi_choking inf' = choke_after (EMsg p c) q (pi_choking inf) /\
       forall i, piece_inb (pi_haves inf') i = true -> piece_inb (pi_haves inf) i = true \/ said_now (EMsg p c) q i).
  { intros f g -> N C HA CA. unfold modify in *. destruct (aget p (m_active m)) as [o|] eqn:GO.
    - eapply PUT; [eauto|reflexivity|auto|apply C|auto|]. intros i X. rewrite HA in X. auto.
    - exists inf'. split; auto. split; auto. split; [|auto]. rewrite CA. destruct (addr_eqb q p) eqn:Q; auto. apply addr_eqb_spec in Q. subst. congruence. }
  destruct c; cbn [handle_message] in H; try discriminate.
  - eapply GONE; [eauto|left; auto|apply ID; intuition discriminate].
  - eapply GONE; [eauto|right; auto|apply ID; intuition discriminate].
  - injection H as <-. apply SAME; [auto|intros [X|X]; discriminate|apply ID; intuition discriminate].
  - injection H as <-. eapply (MOD (set_choking true) (fun _ => true)); try reflexivity; auto. intros [X|X]; discriminate.
  - injection H as <-. eapply (MOD (set_choking false) (fun _ => false)); try reflexivity; auto. intros [X|X]; discriminate.
  - injection H as <-. eapply (MOD (set_interested true) (fun b => b)); try reflexivity; auto; try (intros [X|X]; discriminate); apply ID; intuition discriminate.
  - injection H as <-. eapply (MOD (set_interested false) (fun b => b)); try reflexivity; auto; try (intros [X|X]; discriminate); apply ID; intuition discriminate.
  - unfold handle_have in H. destruct (aget p (m_active m)) as [o|] eqn:GO; [|injection H as <-; apply SAME; [auto|intros [X|X]; discriminate|apply ID; intuition discriminate]].
    destruct (bm_change _ _ _) as [[b v]| |] eqn:BC; try discriminate. cbn [rbind fst snd] in H. destruct (@inb_change _ _ _ _ _ BC) as (_ & _ & J).
    assert (A : m_active m' = aset p (mk_pinfo (pi_choking o) (pi_interested o) b (pi_working o)) (m_active m)).
    { destruct v; [injection H as <-; reflexivity|destruct (freq_inc _ _); try discriminate; cbn in H; injection H as <-; reflexivity]. }
    eapply (PUT _ o (fun b => b)); [auto|exact A|intros [X|X]; discriminate|reflexivity|apply ID; intuition discriminate|].
    intros i0 X. cbn [pi_haves] in X. rewrite J in X. destruct (i0 =? N.to_nat i) eqn:E; auto. apply Nat.eqb_eq in E. subst i0. right. left. rewrite N2Nat.id. auto.
  - unfold accept_bitfield in H. destruct (aget p (m_active m)) as [o|] eqn:GO; [|injection H as <-; apply SAME; [auto|intros [X|X]; discriminate|apply ID; intuition discriminate]].
    destruct (N.ltb _ _) eqn:WZ; [injection H as <-; apply SAME; [auto|intros [X|X]; discriminate|apply ID; intuition discriminate]|].
    destruct (bm_replace_data _ _) as [d'| |] eqn:RD; try discriminate; [|injection H as <-; apply SAME; [auto|intros [X|X]; discriminate|apply ID; intuition discriminate]].
    destruct (bm_bits d'); try discriminate. cbn [rbind] in H. destruct (freq_add _ _ _); try discriminate. cbn in H. injection H as <-.
    eapply (PUT _ o (fun b => b)); [auto|reflexivity|intros [X|X]; discriminate|reflexivity|apply ID; intuition discriminate|].
    intros i X. cbn [pi_haves] in X. right. right. eexists. split; [reflexivity|]. apply inb_in in X. unfold piece_in in X.
    rewrite bm_replace_spec in RD. destruct (_ =? _); [|discriminate]. injection RD as <-. exact X.
Qed.
(** What one step makes of what is known about a peer. *)
Lemma step_said : forall n s e s' out q inf', sys_inv n s -> sys_step s e = Val (s', out) -> aget q (m_active (fst s')) = Some inf' ->
  (pi_choking inf' = true /\ (forall i, piece_inb (pi_haves inf') i = false) /\ e = ERefresh /\ (calm_inv n s -> aget q (m_active (fst s)) = None)) \/
  exists inf, aget q (m_active (fst s)) = Some inf /\ (forall c, e = EMsg q c -> ~ gone c) /\ pi_choking inf' = choke_after e q (pi_choking inf) /\
    forall i, piece_inb (pi_haves inf') i = true -> piece_inb (pi_haves inf) i = true \/ said_now e q i.
Proof.
  intros n [m t] e s' out q inf' [I N] E G. cbn [fst snd] in *. destruct e as [p c| |f|o]; cbn [sys_step fst snd] in E.
  - destruct (handle_message m p c) as [m'| |] eqn:H; try discriminate. injection E as <- <-. cbn [fst] in G. right.
    destruct (@message_said n m p c m' q inf' I H G) as (inf & A & B & C & D). exists inf. split; [exact A|]. split; [|split; [exact C|exact D]]. intros c' X. injection X as -> ->. auto.
  - destruct (m_refresh m t) as [[[m' t'] o']| |] eqn:H; try discriminate. injection E as <- <-. cbn [fst snd] in G.
    unfold m_refresh in H. change MAX_ACTIVE_PEERS with 10 in H. destruct (10 <? _) eqn:T; try discriminate. apply Nat.ltb_ge in T. destruct (_ =? 0) eqn:Z.
    { injection H as <- <- <-. right. exists inf'. split; auto. split; [discriminate|]. auto. }
    destruct (q_batch t (m_inactive m) (10 - length (m_active m))) as [[t1 ps]| |] eqn:EB; try discriminate. cbn [rbind fst snd] in H.
    destruct (add_peers (with_inactive m []) ps) as [[m1 o1]| |] eqn:A; try discriminate. cbn in H. injection H as <- <- <-.
    assert (F : forall ps m m' o, add_peers m ps = Val (m', o) -> forall inf', aget q (m_active m') = Some inf' ->
       (In q ps /\ pi_choking inf' = true /\ forall i, piece_inb (pi_haves inf') i = false) \/ aget q (m_active m) = Some inf').
    { clear. induction ps as [|p ps IH]; intros m m' o H inf' G; cbn [add_peers] in H; [injection H as <- <-; auto|].
      destruct (pi_new (bm_len (m_local m))) as [inf| |] eqn:P; try discriminate. cbn [rbind] in H. destruct (add_peers _ ps) as [[m1 o1]| |] eqn:A; try discriminate. cbn in H. injection H as <- <-.
      destruct (IH _ _ _ A _ G) as [(X & Y)|X]; [left; split; [right; auto|auto]|]. cbn [with_active with_conn m_active] in X. rewrite aget_aset in X. destruct (addr_eqb q p) eqn:Q; auto.
      left. apply addr_eqb_spec in Q. subst q. injection X as <-. split; [left; auto|]. unfold pi_new in P. destruct (bm_new _) as [b| |] eqn:B; try discriminate. cbn [rbind] in P. injection P as <-.
      split; auto. intro i. cbn [pi_haves]. apply bm_ok_new in B as (_ & B & _). rewrite inb_nth, B. apply nth_repeat. }
    destruct (F _ _ _ _ A _ G) as [(X & Y & Z1)|X].
    + left. split; auto. split; auto. split; auto. intro CI. apply aget_none. exact (calm_disjoint CI EB _ X).
    + right. exists inf'. cbn [with_inactive m_active] in X. split; auto. split; [discriminate|]. auto.
  - destruct (m_assign m f) as [[m' o']| |] eqn:H; try discriminate. injection E as <- <-. cbn [fst snd] in G. destruct (assign_is_loop _ I H) as [H' L].
    destruct (@assign_same _ _ _ _ _ _ I L H') as [A _]. right. destruct (A _ _ G) as (inf & B & C & D). exists inf. split; auto. split; [discriminate|]. cbn [choke_after]. rewrite D. auto.
  - destruct (q_step t o) as [[t' o']| |] eqn:H; try discriminate. injection E as <- <-. right. exists inf'. split; auto. split; [discriminate|]. auto.
Qed.
Lemma said_snoc : forall h e out p (good bad : con_message -> Prop), last_said h p good bad -> (forall c, e = EMsg p c -> ~ bad c) -> last_said (h ++ [(e, out)]) p good bad.
Proof.
  intros h e out p good bad (a & c & o & b & -> & G & B) N. exists a, c, o, (b ++ [(e, out)]). rewrite <- app_assoc. split; [reflexivity|]. split; auto.
  intros c' o' X. apply in_app_iff in X as [X|[X|[]]]; [eauto|]. injection X as -> ->. auto.
Qed.
Lemma said_last : forall h c out p (good bad : con_message -> Prop), good c -> last_said (h ++ [(EMsg p c, out)]) p good bad.
Proof. intros h c out p good bad G. exists h, c, out, []. split; [auto|]. split; auto. Qed.
Definition true_words (h : list (mevent * list mout)) (m : mgr) : Prop := forall q inf, aget q (m_active m) = Some inf ->
  (pi_choking inf = false -> unchoked h q) /\ forall i, piece_inb (pi_haves inf) i = true -> announced h q i.
Lemma step_words : forall n s e s' out h, sys_inv n s -> true_words h (fst s) -> sys_step s e = Val (s', out) -> true_words (h ++ [(e, out)]) (fst s').
Proof.
  intros n s e s' out h SI T E q inf' G. destruct (@step_said n s e s' out q inf' SI E G) as [(A & B & _)|(inf & A & NG & C & D)].
  { split; [congruence|]. intros i X. rewrite B in X. discriminate. }
  destruct (T q inf A) as [T1 T2]. split.
  - intro X. rewrite C in X. destruct e as [p c| |f|o]; cbn [choke_after] in X; try (apply said_snoc; [exact (T1 X)|discriminate]).
    destruct (addr_eqb q p) eqn:Q.
    + apply addr_eqb_spec in Q. subst q. specialize (NG c eq_refl). assert (DC : c = CUnchoke \/ pi_choking inf = false /\ c <> CChoke) by (destruct c; auto; try discriminate X; right; split; auto; discriminate).
      destruct DC as [->|[DC1 DC2]]; [apply said_last; auto|]. apply said_snoc; [exact (T1 DC1)|]. intros c' Y. injection Y as <-. intros [Z|Z]; auto.
    + apply said_snoc; [exact (T1 X)|]. intros c' Y. injection Y as -> _. rewrite addr_rfl in Q. discriminate.
  - intros i X. destruct (D i X) as [Y|(c & -> & Y)]; [|apply said_last; auto]. apply said_snoc; [exact (T2 i Y)|]. auto.
Qed.
Lemma perm_words : forall n h s s1, sys_inv n s -> sys_perm s s1 -> true_words h (fst s) -> true_words h (fst s1).
Proof.
  intros n h s s1 SI P T q inf G. pose proof (perm_inv SI P) as [I1 _]. destruct SI as [I _]. destruct P as (a & t & P & _ & ->). cbn [fst with_active m_active] in *.
  apply T. apply aget_spec; [apply (i_nodup I)|]. apply aget_spec in G; [|apply (i_nodup I1)]. eapply Permutation_in; [apply Permutation_sym|]; eauto.
Qed.
Lemma run_words : forall n s h s', sys_run s h s' -> sys_inv n s -> forall h0, true_words h0 (fst s) -> true_words (h0 ++ h) (fst s').
Proof.
  induction 1 as [|s s1 e s2 out h s' P E R IH]; intros SI h0 T; [rewrite app_nil_r; auto|].
  pose proof (perm_inv SI P) as S1. change (h0 ++ (e, out) :: h) with (h0 ++ [(e, out)] ++ h). rewrite app_assoc. apply IH; [eapply step_inv; eauto|].
  eapply step_words; [exact S1| |exact E]. eapply perm_words; [exact SI|exact P|exact T].
Qed.

Lemma loop_hashes : forall k n m f m' out, inv n m -> N.to_nat (bm_weight (m_pieces m)) + k <= 9 -> assign_loop m f k = Val (m', out) -> m_hashes m = m_hashes m'.
Proof.
  induction k as [|k IH]; intros n m f m' out I L H; cbn [assign_loop] in H; [injection H as <- <-; auto|].
  destruct (select_exact I) as (r & E & R). rewrite E in H. cbn [rbind] in H. destruct r as [[[p i] h]|]; [|injection H as <- <-; auto].
  destruct R as (W & LE & HH & SP). assert (KP : In p (map fst (m_active m))) by (destruct SP as (inf & IN & _); apply (in_map fst) in IN; auto).
  unfold start_piece in H. destruct (existsb (addr_eqb p) (m_conn m) && f k) eqn:X.
  - destruct (@mark_spec n m p i I KP) as (m1 & E1 & I1 & _ & _ & _ & _ & _ & _ & W1 & _).
    { destruct W as (_ & B & _). rewrite (bo_len (i_local I)) in B. auto. } { lia. }
    rewrite E1 in H. cbn [rmap rbind fst snd] in H. destruct (assign_loop m1 f k) as [[m2 o2]| |] eqn:A; try discriminate. cbn in H. injection H as <- <-.
    destruct (mark_wt p i I KP E1) as (_ & _ & MH). rewrite <- MH. apply (IH n m1 f m2 o2 I1); [lia|exact A].
  - cbn [rbind fst snd] in H. destruct (assign_loop m f k) as [[m2 o2]| |] eqn:A; try discriminate. cbn in H. injection H as <- <-. apply (IH n m f m2 o2 I); [lia|exact A].
Qed.

(** ** C31 *)
(** Who is told to fetch a piece last said that it does not choke us, and said
    that it has the piece, on the connection it has now. *)
Theorem C31_history : forall hs s0 h s sent s' out p k i, sys_start hs s0 -> sys_run s0 h s -> sys_step s (EAssign sent) = Val (s', out) ->
  In (OStart p k i) out -> unchoked h p /\ announced h p i /\ nth_error hs i = Some k.
Proof.
  intros hs s0 h s sent s' out p k i A R E O. pose proof (k_inv (start_inv A)) as SI. pose proof (run_inv R SI) as [I _].
  assert (T : true_words h (fst s)). { apply (@run_words _ _ _ _ R SI []). destruct A as (m & M & ->). unfold m_init in M. destruct (bm_new _); try discriminate. injection M as <-. intros q inf G. discriminate. }
  cbn [sys_step] in E. destruct (m_assign (fst s) sent) as [[m' o']| |] eqn:H; try discriminate. injection E as <- <-. cbn [snd] in O. destruct (assign_is_loop _ I H) as [H' L].
  destruct (@assign_same _ _ _ _ _ _ I L H') as [_ B]. destruct (B _ _ _ O) as (inf & C & D & F). apply aget_spec in C; [|apply (i_nodup I)]. destruct (T _ _ C) as [T1 T2].
  split; [auto|]. split; [apply T2; apply inb_in; auto|].
  destruct (@m_assign_spec _ _ sent I) as (m2 & o2 & H2 & _ & _ & _ & _ & _ & _ & _ & _ & OO). rewrite H in H2. injection H2 as <- <-. destruct (OO _ O) as (p' & k' & i' & X & _ & _ & _ & HH & _). injection X as <- <- <-.
  rewrite <- HH. f_equal. clear - A R. symmetry.
  assert (G : m_hashes (fst s0) = hs) by (destruct A as (m & M & ->); unfold m_init in M; destruct (bm_new _); try discriminate; injection M as <-; auto). rewrite <- G. symmetry. clear G.
  pose proof (k_inv (start_inv A)) as SI. revert SI. generalize (length hs). clear A. intro n. induction R as [|s s1 e s2 out h s' P E R IH]; intro SI; auto.
  pose proof (perm_inv SI P) as S1. pose proof (step_inv _ S1 E) as S2. rewrite <- (IH S2). clear - P E S1.
  transitivity (m_hashes (fst s1)). { destruct P as (a & t & _ & _ & ->). reflexivity. } destruct S1 as [I N]. destruct s1 as [m t]. cbn [fst snd] in *.
  destruct e as [p c| |f|o]; cbn [sys_step fst snd] in E.
  - destruct (handle_message m p c) as [m'| |] eqn:H; try discriminate. injection E as <- <-. cbn [fst]. clear - H. destruct c; cbn [handle_message] in H; try discriminate; try (injection H as <-; unfold modify; try destruct (aget _ _); reflexivity).
    + unfold mark_inactive in H. destruct (aget _ _); [|injection H as <-; auto]. destruct (bm_bits _); try discriminate. cbn [rbind] in H. destruct (freq_dec _ _); try discriminate. cbn in H. injection H as <-. auto.
    + unfold mark_inactive in H. destruct (aget _ _); [|injection H as <-; auto]. destruct (bm_bits _); try discriminate. cbn [rbind] in H. destruct (freq_dec _ _); try discriminate. cbn in H. injection H as <-. auto.
    + unfold handle_have in H. destruct (aget _ _); [|injection H as <-; auto]. destruct (bm_change _ _ _) as [[b v]| |]; try discriminate. cbn [rbind fst snd] in H. destruct v; [injection H as <-; auto|]. destruct (freq_inc _ _); try discriminate. cbn in H. injection H as <-. auto.
    + unfold accept_bitfield in H. destruct (aget _ _); [|injection H as <-; auto]. destruct (N.ltb _ _); [injection H as <-; auto|]. destruct (bm_replace_data _ _) as [d'| |]; try discriminate; [|injection H as <-; auto].
      destruct (bm_bits d'); try discriminate. cbn [rbind] in H. destruct (freq_add _ _ _); try discriminate. cbn in H. injection H as <-. auto.
  - destruct (m_refresh m t) as [[[m' t'] o']| |] eqn:H; try discriminate. injection E as <- <-. cbn [fst]. unfold m_refresh in H. destruct (_ <? _); try discriminate. destruct (_ =? 0); [injection H as <- <- <-; auto|].
    destruct (q_batch _ _ _) as [[t1 ps]| |]; try discriminate. cbn [rbind fst snd] in H. destruct (add_peers (with_inactive m []) ps) as [[m1 o1]| |] eqn:A; try discriminate. cbn in H. injection H as <- <- <-.
    change (m_hashes m) with (m_hashes (with_inactive m [])). revert A. generalize (with_inactive m []). clear. revert m1 o1. induction ps as [|p ps IH]; intros m1 o1 m A; cbn [add_peers] in A; [injection A as <- <-; auto|].
    destruct (pi_new _); try discriminate. cbn [rbind] in A. destruct (add_peers _ ps) as [[m2 o2]| |] eqn:B; try discriminate. cbn in A. injection A as <- <-. rewrite <- (IH _ _ _ B). reflexivity.
  - destruct (m_assign m f) as [[m' o']| |] eqn:H; try discriminate. injection E as <- <-. cbn [fst]. destruct (assign_is_loop _ I H) as [H' L]. eapply loop_hashes; eauto.
  - destruct (q_step t o) as [[t' o']| |] eqn:H; try discriminate. injection E as <- <-. auto.
Qed.
(** And the last word counts: while nobody announces active peers, what an active
    peer said about choking holds until it says otherwise or is reported gone. *)
Lemma stays : forall n s e s' out p, sys_inv n s -> sys_step s e = Val (s', out) -> In p (map fst (m_active (fst s))) -> (forall c, e = EMsg p c -> ~ gone c) -> In p (map fst (m_active (fst s'))).
Proof.
  intros n [m t] e s' out p [I N] E K NG. cbn [fst snd] in *. destruct e as [q c| |f|o]; cbn [sys_step fst snd] in E.
  - destruct (handle_message m q c) as [m'| |] eqn:H; try discriminate. injection E as <- <-. cbn [fst]. destruct (@message_inv n m q c m' I H) as (I' & _ & _ & KK).
    destruct (peer_gone c) eqn:PG.
    + destruct KK as [KK _]. rewrite KK. apply adel_keys; [apply (i_nodup I)|]. split; auto. intros ->. apply (NG c); auto. destruct c; try discriminate; [left|right]; auto.
    + destruct KK as [KK _]. rewrite KK. auto.
  - destruct (@refresh_spec n m t I N) as (m' & t' & o' & H & _ & _ & _ & D). rewrite H in E. injection E as <- <-. cbn [fst].
    destruct D as [D|(ps & _ & _ & _ & KK & _)]; [injection D as -> -> ->; auto|]. apply KK. auto.
  - destruct (@m_assign_spec n m f I) as (m' & o' & H & _ & _ & KK & _). rewrite H in E. injection E as <- <-. cbn [fst]. rewrite KK. auto.
  - destruct (q_step t o) as [[t' o']| |]; try discriminate. injection E as <- <-. auto.
Qed.
Lemma calm_choking : forall n s h s', calm_run s h s' -> calm_inv n s -> forall p inf, aget p (m_active (fst s)) = Some inf ->
  (forall c o, In (EMsg p c, o) h -> c <> CChoke /\ c <> CUnchoke /\ ~ gone c) -> exists inf', aget p (m_active (fst s')) = Some inf' /\ pi_choking inf' = pi_choking inf.
Proof.
  induction 1 as [|s s1 e s2 out h s' P Q E R IH]; intros CI p inf G F; [eauto|].
  pose proof (perm_calm CI P) as C1. pose proof (k_inv C1) as SI1.
  assert (G1 : aget p (m_active (fst s1)) = Some inf).
  { destruct (k_inv CI) as [I _]. destruct SI1 as [I1 _]. destruct P as (a & t & P & _ & ->). cbn [fst with_active m_active] in *. apply aget_spec; [apply (i_nodup I1)|].
    apply aget_spec in G; [|apply (i_nodup I)]. eapply Permutation_in; eauto. }
  assert (K : In p (map fst (m_active (fst s2)))).
  { eapply stays; eauto; [apply aget_spec in G1; [apply (in_map fst) in G1; auto|apply (i_nodup (proj1 SI1))]|]. intros c ->. destruct (F c out) as (_ & _ & X); [left; auto|auto]. }
  destruct (aget p (m_active (fst s2))) as [i2|] eqn:G2; [|apply aget_none in G2; tauto].
  destruct (@step_said n s1 e s2 out p i2 SI1 E G2) as [(_ & _ & _ & X)|(i1 & A & _ & C & _)]; [rewrite (X C1) in G1; discriminate|]. assert (i1 = inf) by congruence. subst i1.
  destruct (IH (step_calm C1 E Q) p i2 G2) as (i' & G' & C'). { intros c o X. apply (F c o). right. auto. }
  exists i'. split; auto. rewrite C', C. destruct e as [q c| |f|o]; auto. cbn [choke_after]. destruct (addr_eqb p q) eqn:PQ; auto. apply addr_eqb_spec in PQ. subst q.
  destruct (F c out) as (X & Y & _); [left; auto|]. destruct c; auto; tauto.
Qed.
Theorem C31_last_word : forall hs s0 a s1 p c s2 out b s, sys_start hs s0 -> calm_run s0 a s1 -> In p (map fst (m_active (fst s1))) -> c = CChoke \/ c = CUnchoke ->
  sys_step s1 (EMsg p c) = Val (s2, out) -> calm_run s2 b s -> (forall c' o, In (EMsg p c', o) b -> c' <> CChoke /\ c' <> CUnchoke /\ ~ gone c') ->
  exists inf, In (p, inf) (m_active (fst s)) /\ (pi_choking inf = true <-> c = CChoke).
Proof.
  intros hs s0 a s1 p c s2 out b s A R K C E B F. pose proof (calm_run_inv R (start_inv A)) as C1. pose proof (k_inv C1) as SI1.
  assert (C2 : calm_inv (length hs) s2) by (eapply step_calm; eauto; discriminate).
  assert (K2 : In p (map fst (m_active (fst s2)))). { eapply stays; eauto. intros c' X [Y|Y]; injection X as <-; subst c; destruct C; discriminate. }
  destruct (aget p (m_active (fst s2))) as [i2|] eqn:G2; [|apply aget_none in G2; tauto].
  destruct (calm_choking B C2 p G2 F) as (inf & G & CH). exists inf. split; [apply aget_spec; [apply (i_nodup (proj1 (k_inv (calm_run_inv B C2))))|auto]|]. rewrite CH.
  destruct (@step_said _ s1 _ s2 out p i2 SI1 E G2) as [(_ & _ & X & _)|(i1 & _ & _ & X & _)]; [discriminate|]. cbn [choke_after] in X. rewrite addr_rfl in X. rewrite X.
  destruct C as [->| ->]; split; auto; discriminate.
Qed.
(** The history of ManagerProps.v, then a round: the first piece is given to a
    peer that unchoked us and has it; and a peer that chokes us again. *)
Example C31_history_example : exists s0 s s' out, sys_start three s0 /\ sys_run s0 ex_history s /\ sys_step s (EAssign always) = Val (s', out) /\ In (OStart (pa 1) (hash0 x01) 0) out.
Proof.
  eexists. eexists. eexists. eexists. split; [eexists; split; [vm_compute; reflexivity|reflexivity]|]. split; [do 5 go; apply sr_nil|].
  split; [vm_compute; reflexivity|]. left. reflexivity.
Qed.
Example C31_last_word_example : exists s0 s1 s2 s, sys_start three s0 /\ calm_run s0 ex_history s1 /\ In (pa 1) (map fst (m_active (fst s1))) /\
  sys_step s1 (EMsg (pa 1) CChoke) = Val (s2, []) /\ calm_run s2 [(EMsg (pa 1) (CHave 2), []); (EAssign always, [])] s.
Proof.
  eexists. eexists. eexists. eexists. split; [eexists; split; [vm_compute; reflexivity|reflexivity]|]. split.
  - unfold ex_history. cgo; [intros o p E Hp H; destruct H|]. do 4 (cgo; [intros o p E; discriminate|]). apply cr_nil.
  - split; [left; reflexivity|]. split; [vm_compute; reflexivity|]. do 2 (cgo; [intros o p E; discriminate|]). apply cr_nil.
Qed.
Print Assumptions C31_history.
Print Assumptions C31_last_word.
