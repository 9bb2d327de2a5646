(** C136: a peer search walks from client to client. *)
From Coq Require Import Strings.String.
From Coq Require Import List NArith ZArith Lia Bool Arith Permutation.
From Coq Require Import Init.Byte.
From Verif Require Import Base Assoc IdModel WireModel TableModel TableSpec TableProofs TableProofs2 TableProps LookupProps PeersModel PeersSpec PeersProofs PeersProps BencodeModel BencodeSpec BencodeProofs KrpcModel Utf8Spec Utf8Proofs KrpcSpec KrpcProofs KrpcProps ReadProps DhtModel DhtSpec DhtMgrModel DhtMgrSpec DhtMgrProps FetchModel TaskModel TaskProps DhtProps DhtSysModel DhtSysSpec DhtAskSpec DhtAskProps ClientInvProps NetModel NetSpec NetProofs NetProps NetSafeProps DhtLifeProps NetMeetProps NetFindProps.
Import ListNotations.
Set Implicit Arguments.
Local Open Scope list_scope.

(** The client at [x] remembers no peer list for the torrent, has at most eight
    good nodes, none with the torrent's hash as id, and the one at [y] is one of
    the good ones. *)
Definition leads (n : net) (x : addr) (ih : ID) (now : N) (y : addr) : Prop :=
  (forall l, ~ In (ih, l) (g_map (k_mgr (y_dht (h_sys (n_hosts n x)))))) /\ ~ TableSpec.known (table_at n x) ih /\
  count (fresh now) (t_nodes (table_at n x)) <= 8 /\ exists m, In m (t_nodes (table_at n x)) /\ fresh now m = true /\ n_addr m = y.
(** Each leads to the next; the last has something to answer with. *)
Fixpoint chain (n : net) (ih : ID) (now : N) (xs : list addr) : Prop :=
  match xs with
  | [] => True
  | x :: r => match r with [] => has_answer n x ih now | y :: _ => leads n x ih now y /\ chain n ih now r end
  end.
(** The client at [x] can take part: it has nothing under way and is of another torrent. *)
Definition helper (who : addr -> option client) (n : net) (ca : client) (x : addr) : Prop :=
  exists cx, who x = Some cx /\ all_room cx /\ idle n x /\ v_info ca <> v_info cx.
(** The search knows [x], and has room for what [k] clients say: fifteen nodes and
    a token each. *)
Definition searches_far (n : net) (a x : addr) (k : nat) : Prop :=
  exists f, search_idle n a f /\ In x (keys (fs_nodes f)) /\ length (fs_nodes f) + 15 * k <= 511 /\
    length (filter (fun e => match f_token (snd e) with Some _ => true | None => false end) (fs_nodes f)) + k <= 16.

(** ** what the search knows after an answer *)
Definition has_tok (f : node_map) (x : addr) : Prop := exists v t, mget addr_eqb x f = Some v /\ f_token v = Some t.
Lemma has_tok_key : forall f x, has_tok f x -> In x (keys f).
Proof. intros f x (v & t & M & _). eapply (@mget_some_key _ _ _ addr_eqb_spec); exact M. Qed.
Lemma mset_key : forall (m : node_map) b w x, In x (keys m) \/ x = b -> In x (keys (mset addr_eqb b w m)).
Proof. intros m b w x H. rewrite keys_mset. destruct (mhas addr_eqb b m) eqn:E; [|apply in_or_app; destruct H as [H|H]; [left; exact H|right; left; auto]]. destruct H as [H| ->]; [exact H|]. apply (mhas_in _ addr_eqb_spec). exact E. Qed.
Lemma new_keys : forall ih l (m : node_map) x, In x (keys m) \/ In x (map n_addr l) -> In x (keys (fst (new_nodes ih l m))).
Proof.
  intros ih. induction l as [|n l IH]; intros m x H; cbn [new_nodes map In] in *; [destruct H as [H|[]]; exact H|]. destruct (mhas addr_eqb (n_addr n) m) eqn:E.
  - apply IH. destruct H as [H|[<-|H]]; auto. left. apply (mhas_in _ addr_eqb_spec). exact E.
  - cbn [fst]. apply IH. destruct H as [H|[<-|H]]; auto; left; apply mset_key; auto.
Qed.
Lemma after_key : forall ih m old b t v x, In x (keys m) -> In x (keys (after ih m old b t v)).
Proof. intros ih m old b t v x H. destruct v; cbn [after]; [|apply new_keys; left]; apply mset_key; auto. Qed.
Lemma after_new : forall ih m old b t nd x, In x (map n_addr (nodes_list nd)) -> In x (keys (after ih m old b t (VNodes nd))).
Proof. intros ih m old b t nd x H. cbn [after]. apply new_keys. right. exact H. Qed.
Lemma after_tok : forall ih m old b t v x, has_tok m x \/ x = b -> has_tok (after ih m old b t v) x.
Proof.
  intros ih m old b t v x H. assert (Z : forall w, f_token w = Some t -> has_tok (mset addr_eqb b w m) x).
  { intros w T. destruct (dec_addr x b) as [->|D]; [exists w, t; split; [apply (mget_mset_same _ addr_eqb_spec)|exact T]|]. destruct H as [(u & s & M & U)|H]; [|contradiction]. exists u, s. split; [rewrite (mget_mset_other _ addr_eqb_spec) by exact D; exact M|exact U]. }
  destruct v as [l|nd]; cbn [after]; [apply Z; reflexivity|]. destruct (Z (FPeerless (f_id old) t) eq_refl) as (u & s & M & U). exists u, s. split; [apply new_nodes_keep; exact M|exact U].
Qed.
Lemma after_len : forall ih m old b t v, mget addr_eqb b m = Some old -> match v with VNodes nd => length (nodes_list nd) <= 15 | _ => True end -> length (after ih m old b t v) <= length m + 15.
Proof.
  intros ih m old b t v M L. assert (Z : forall w, length (mset addr_eqb b w m) = length m) by (intro w; rewrite length_mset; unfold mhas; rewrite M; reflexivity).
  destruct v as [l|nd]; cbn [after]; [rewrite Z; lia|]. pose proof (new_nodes_len ih (nodes_list nd) (mset addr_eqb b (FPeerless (f_id old) t) m)). rewrite Z in H. lia.
Qed.
Lemma after_toks : forall ih m old b t v, length (toks (after ih m old b t v)) <= S (length (toks m)).
Proof. intros ih m old b t v. destruct v; cbn [after]; rewrite ?toks_new; apply toks_one. Qed.
Lemma tok_small : forall f x, has_tok (fs_nodes f) x -> length (fs_nodes f) <= 511 -> length (toks (fs_nodes f)) <= 16 -> small x f.
Proof. intros f x (v & t & M & T) L K. split; [exact L|]. intro w. eapply Nat.le_trans; [eapply toks_again; eauto|exact K]. Qed.
Lemma one_small : forall f x, length (fs_nodes f) <= 511 -> S (length (toks (fs_nodes f))) <= 16 -> small x f.
Proof. intros f x L K. split; [exact L|]. intro w. pose proof (toks_one x w (fs_nodes f)). lia. Qed.
Lemma seen_addrs : forall nd, map n_addr (nodes_list (seen_nodes nd)) = map n_addr (nodes_list nd).
Proof. intros nd. unfold seen_nodes. change (nodes_list nd) with (nodes_of nd). destruct (nodes_of nd) as [|x [|y l]]; cbn; [reflexivity|reflexivity|]. rewrite map_map. reflexivity. Qed.
(** A client that leads on names whom it leads to. *)
Lemma leads_names : forall n x ih now y v, reachable (table_at n x) -> wf_id ih -> leads n x ih now y -> answer_for now (h_sys (n_hosts n x)) ih v ->
  exists nd, v = VNodes nd /\ length (nodes_list nd) <= 15 /\ In y (map n_addr (nodes_list nd)).
Proof.
  intros n x ih now y v R W (NM & NK & C & m & I & F & A) AV. unfold answer_for in AV.
  destruct (mget bytes_eqb ih (gmap (h_sys (n_hosts n x)))) as [l|] eqn:M; [destruct (NM l); exact (@mget_in _ _ _ bytes_eqb_eq _ _ _ M)|].
  destruct AV as (nd & -> & _ & L & FN). exists nd. split; [reflexivity|]. split; [exact L|].
  destruct (@C47_closest_partial now (table_at n x) ih R W NK) as (o & FN' & O). change (tab (h_sys (n_hosts n x))) with (table_at n x) in FN. rewrite FN in FN'. injection FN' as <-. destruct nd as [e|l]; [destruct O|]. destruct O as (ND & IN & (LL & _) & _).
  rewrite Nat.min_r in LL by exact C. cbn [nodes_list]. apply in_map_iff. exists m. split; [exact A|].
  assert (NL : NoDup l) by (apply (NoDup_map_inv n_id); exact ND).
  apply (@NoDup_length_incl _ l (filter (fresh now) (t_nodes (table_at n x))) NL LL).
  - intros z Z. apply filter_In. apply IN. exact Z.
  - apply filter_In. auto.
Qed.
Lemma leads_answer : forall n x ih now y, leads n x ih now y -> has_answer n x ih now.
Proof. intros n x ih now y (_ & _ & _ & m & I & F & _). right. unfold count. assert (J : In m (filter (fresh now) (t_nodes (table_at n x)))) by (apply filter_In; auto). destruct (filter _ _); [destruct J|cbn; lia]. Qed.
Lemma chain_same : forall xs n n' ih now, (forall x, In x xs -> n_hosts n' x = n_hosts n x) -> chain n ih now xs -> chain n' ih now xs.
Proof.
  induction xs as [|x xs IH]; intros n n' ih now H C; [exact I|]. cbn [chain] in *. destruct xs as [|y r].
  - unfold has_answer, remembers, table_at in *. rewrite (H x (or_introl eq_refl)). exact C.
  - destruct C as (L & C). split; [unfold leads, table_at in *; rewrite (H x (or_introl eq_refl)); exact L|]. apply (IH n); [intros z Z; apply H; right; exact Z|exact C].
Qed.
Lemma chain_head : forall n ih now x r, chain n ih now (x :: r) -> has_answer n x ih now.
Proof. intros n ih now x [|y r] C; [exact C|]. destruct C as (L & _). eapply leads_answer; exact L. Qed.
Lemma helper_same : forall who n n' ca x, n_hosts n' x = n_hosts n x -> helper who n ca x -> helper who n' ca x.
Proof. intros who n n' ca x H (cx & W & L & I & N). exists cx. unfold idle, at_rest, listening in *. rewrite H. auto. Qed.
(** What happens at [a] or one of [xs], and datagrams between clients. *)
Definition among (a : addr) (xs : list addr) (e : nev) : Prop := match e with NDo x _ => x = a \/ In x xs | NGet _ => True | NStranger _ _ _ => False end.

Section net.
Variable sha : bytes -> bytes.
Variable who : addr -> option client.
Notation nrun := (nrun sha who).
Hypothesis FIT : forall a c, who a = Some c -> fit a c.
Hypothesis SHA : forall s, length (sha s) = 20.
(** What one client remembers after the search of [a] came to it. *)
Definition now_holds (n n' : net) (a : addr) (ca : client) (x : addr) : Prop :=
  gmap (h_sys (n_hosts n' x)) = mset bytes_eqb (v_info ca) (match mget bytes_eqb (v_info ca) (gmap (h_sys (n_hosts n x))) with Some l => set_add (tcp_at a ca) l | None => [tcp_at a ca] end) (gmap (h_sys (n_hosts n x))).
Lemma walk_run : forall xs es n a ca f now, (forall e, In e es -> proper e) -> nrun (net_start who) es = Some n -> who a = Some ca -> all_room ca -> (v_tcp ca < 65536)%N ->
  at_rest n a -> search_idle n a f -> (forall x r, xs = x :: r -> In x (keys (fs_nodes f))) -> length (fs_nodes f) + 15 * length xs <= 511 -> length (toks (fs_nodes f)) + length xs <= 16 ->
  NoDup xs -> ~ In a xs -> (forall x, In x xs -> helper who n ca x) -> chain n (v_info ca) now xs ->
  exists es' n' f', nrun n es' = Some n' /\ (forall e, In e es' -> proper e /\ among a xs e) /\
    (forall x l p, In x xs -> In (v_info ca, l) (gmap (h_sys (n_hosts n x))) -> In p (firstn 216 l) -> has_peer n' a p) /\ (forall p, has_peer n a p -> has_peer n' a p) /\
    (forall x, In x xs -> now_holds n n' a ca x /\ idle n' x /\ table_at n' x = table_at n x) /\
    at_rest n' a /\ search_idle n' a f' /\ table_at n' a = table_at n a /\ (forall x, x <> a -> ~ In x xs -> n_hosts n' x = n_hosts n x) /\
    (forall x, has_tok (fs_nodes f) x \/ In x xs -> has_tok (fs_nodes f') x) /\ length (fs_nodes f') <= 511 /\ length (toks (fs_nodes f')) <= 16.
Proof.
  induction xs as [|b xs IH]; intros es n a ca f now P R WA LA TP RA SF HD LN LT ND NA HP CH.
  - exists [], n, f. cbn [length] in *. split; [reflexivity|]. split; [intros ? []|]. split; [intros ? ? ? []|]. split; [auto|]. split; [intros ? []|]. split; [exact RA|]. split; [exact SF|]. split; [reflexivity|]. split; [auto|]. split; [intros x [X|[]]; exact X|]. lia.
  - destruct (HP b (or_introl eq_refl)) as (cb & WB & LB & IB & NI). assert (NE : a <> b) by (intros ->; apply NA; left; reflexivity). pose proof (HD _ _ eq_refl) as KB. cbn [length] in LN, LT.
    inversion ND as [|? ? NB ND']; subst.
    assert (WKB : working n b) by (destruct IB as ((L & PB & _) & _); split; [exact L|]; rewrite PB; discriminate).
    pose proof (@working_well sha who es n b cb FIT P WB R WKB) as WLB.
    destruct (@round_run sha who FIT SHA es n a ca b cb f now P R WA WB NE LA LB RA SF KB) as (e1 & n1 & f1 & H1 & H2 & H3 & H4 & H5 & H6 & H7 & H8 & H9 & H10 & H11 & H12 & H13 & old & tok & v & OLD & FN & AV).
    { apply one_small; lia. } { exact IB. } { exact NI. } { exact TP. }
    { destruct (@chain_head _ _ _ _ _ CH) as [X|X]; [left; exact X|right; split; [lia|exact X]]. }
    assert (LV : match seen_von v with VNodes nd => length (nodes_list nd) <= 15 | _ => True end).
    { unfold answer_for in AV. destruct (mget _ _ _); [subst v; exact I|]. destruct AV as (nd & -> & _ & L & _). cbn [seen_von]. rewrite seen_nodes_len. exact L. }
    pose proof (@after_len (fs_info f) (fs_nodes f) old b tok (seen_von v) OLD LV) as LN1. rewrite <- FN in LN1. pose proof (@after_toks (fs_info f) (fs_nodes f) old b tok (seen_von v)) as LT1. rewrite <- FN in LT1.
    assert (P1 : forall e, In e (es ++ e1) -> proper e) by (intros e I; apply in_app_or in I; destruct I as [I|I]; [auto|apply H2; exact I]).
    assert (R1 : nrun (net_start who) (es ++ e1) = Some n1) by (rewrite nrun_app, R; exact H1).
    assert (SX : forall x, In x xs -> n_hosts n1 x = n_hosts n x) by (intros x I; apply H13; [intros ->; apply NA; right; exact I|intros ->; contradiction]).
    destruct (IH (es ++ e1) n1 a ca f1 now P1 R1 WA LA TP H6 H7) as (e2 & n2 & f2 & K1 & K2 & K3 & K4 & K5 & K6 & K7 & K8 & K9 & K10 & K11 & K12).
    + intros y r ->. destruct CH as (LD & _). destruct (@leads_names n b (v_info ca) now y v (w_tab WLB) (proj1 (proj2 (proj1 (FIT WA)))) LD AV) as (nd & -> & _ & IN). rewrite FN. cbn [seen_von]. apply after_new. rewrite seen_addrs. exact IN.
    + lia.
    + lia.
    + exact ND'.
    + intro I. apply NA. right. exact I.
    + intros x I. apply (@helper_same who n); [apply SX; exact I|apply HP; right; exact I].
    + apply (@chain_same xs n); [exact SX|]. cbn [chain] in CH. destruct xs; [exact I|apply CH].
    + assert (SB : n_hosts n2 b = n_hosts n1 b) by (apply K9; [congruence|exact NB]).
      exists (e1 ++ e2), n2, f2. split; [rewrite nrun_app, H1; exact K1|]. split.
      { intros e I. apply in_app_or in I. destruct I as [I|I].
        - destruct (H2 _ I) as (Z1 & Z2). split; [exact Z1|]. destruct e; cbn in *; auto. destruct Z2; auto.
        - destruct (K2 _ I) as (Z1 & Z2). split; [exact Z1|]. destruct e; cbn in *; auto. destruct Z2; auto. }
      split. { intros x l p [<-|I] J JP; [apply K4; eapply H3; eauto|]. eapply K3; [exact I| |exact JP]. rewrite (SX x I). exact J. }
      split; [auto|]. split.
      { intros x [<-|I].
        - unfold now_holds, idle, at_rest, listening, table_at in *. rewrite SB. auto.
        - destruct (K5 x I) as (Z1 & Z2 & Z3). unfold now_holds, table_at in *. rewrite (SX x I) in Z1, Z3. auto. }
      split; [exact K6|]. split; [exact K7|]. split; [rewrite K8; exact H11|]. split.
      { intros x X1 X2. rewrite K9; [apply H13; [exact X1|]|exact X1|]; intro Z; apply X2; [left; auto|right; exact Z]. }
      split; [|auto]. intros x [X|[<-|X]]; apply K10; [left; rewrite FN; apply after_tok; auto|left; rewrite FN; apply after_tok; auto|right; exact X].
Qed.
End net.

(** ** the theorems *)
(** A search that knows the first of a row of clients, each of which knows the
    next, can come to the last: it gets the peers of its torrent that any of them
    remembers (the first 216 of each), and all of them remember the searching
    client afterwards. Nobody loses anything, and nobody else is needed. *)
Theorem C136_walk : forall sha who es n a ca x r now, (forall a c, who a = Some c -> fit a c) -> (forall s, length (sha s) = 20) -> (forall e, In e es -> proper e) -> nrun sha who (net_start who) es = Some n ->
  who a = Some ca -> all_room ca -> (v_tcp ca < 65536)%N -> at_rest n a -> searches_far n a x (length (x :: r)) -> NoDup (a :: x :: r) -> (forall b, In b (x :: r) -> helper who n ca b) -> chain n (v_info ca) now (x :: r) ->
  exists es' n', nrun sha who n es' = Some n' /\ (forall e, In e es' -> proper e /\ among a (x :: r) e) /\
    (forall b l p, In b (x :: r) -> In (v_info ca, l) (g_map (k_mgr (y_dht (h_sys (n_hosts n b))))) -> In p (firstn 216 l) -> has_peer n' a p) /\
    (forall b, In b (x :: r) -> remembers n' b (v_info ca) (tcp_at a ca)) /\
    (forall p, has_peer n a p -> has_peer n' a p) /\ (forall b ih p, In b (x :: r) -> remembers n b ih p -> remembers n' b ih p) /\
    at_rest n' a /\ (forall b, In b (x :: r) -> idle n' b) /\ (forall b, In b (a :: x :: r) -> table_at n' b = table_at n b) /\ (forall b, ~ In b (a :: x :: r) -> n_hosts n' b = n_hosts n b).
Proof.
  intros sha who es n a ca x r now FIT SHA P R WA LA TP RA (f & SF & KX & LN & LT) ND HP CH. rewrite toks_filter in LT. inversion ND as [|? ? NA ND']; subst.
  destruct (@walk_run sha who FIT SHA (x :: r) es n a ca f now P R WA LA TP RA SF) as (es' & n' & f' & H1 & H2 & H3 & H4 & H5 & H6 & H7 & H8 & H9 & _); try assumption.
  { intros z s E. injection E as <- _. exact KX. }
  assert (ST : forall b, In b (x :: r) -> remembers n' b (v_info ca) (tcp_at a ca) /\ forall ih p, remembers n b ih p -> remembers n' b ih p).
  { intros b I. destruct (HP b I) as (cb & WB & _ & IB & _). assert (WKB : working n b) by (destruct IB as ((L & PB & _) & _); split; [exact L|]; rewrite PB; discriminate).
    destruct (@working_map sha who FIT es n b cb P WB R WKB) as (NB & _). destruct (@stored (gmap (h_sys (n_hosts n b))) (v_info ca) (tcp_at a ca) NB) as (S1 & S2 & _). destruct (H5 b I) as (E & _). rewrite <- E in S1, S2. split; [exact S1|exact S2]. }
  exists es', n'. split; [exact H1|]. split; [exact H2|]. split; [exact H3|]. split; [intros b I; exact (proj1 (ST b I))|]. split; [exact H4|]. split; [intros b ih p I; exact (proj2 (ST b I) ih p)|]. split; [exact H6|]. split; [intros b I; exact (proj1 (proj2 (H5 b I)))|].
  split; [intros b [<-|I]; [exact H8|exact (proj2 (proj2 (H5 b I)))]|]. intros b N. apply H9; intro Z; apply N; [left; auto|right; exact Z].
Qed.

Lemma first_in : forall (xs ys : list addr) b, In b xs -> In b ys -> exists p z q, ys = p ++ z :: q /\ In z xs /\ forall y, In y p -> ~ In y xs.
Proof.
  intros xs. induction ys as [|y ys IH]; intros b I J; [destruct J|]. destruct (existsb (addr_eqb y) xs) eqn:E.
  - apply existsb_exists in E. destruct E as (w & W & E). apply addr_eqb_spec in E. subst w. exists [], y, ys. split; [reflexivity|]. split; [exact W|]. intros ? [].
  - assert (N : ~ In y xs) by (intro X; assert (T : existsb (addr_eqb y) xs = true) by (apply existsb_exists; exists y; split; [exact X|apply addr_eqb_spec; reflexivity]); congruence).
    destruct J as [<-|J]; [contradiction|]. destruct (IH b I J) as (p & z & q & -> & Z & Y). exists (y :: p), z, q. split; [reflexivity|]. split; [exact Z|]. intros w [<-|W]; auto.
Qed.
Lemma chain_cut : forall p n n' ih now z q, chain n ih now (p ++ z :: q) -> (forall x, In x p -> n_hosts n' x = n_hosts n x) -> has_answer n' z ih now -> chain n' ih now (p ++ [z]).
Proof.
  induction p as [|x p IH]; intros n n' ih now z q C S A; [exact A|]. cbn [app chain] in *.
  assert (L : forall y, leads n x ih now y -> leads n' x ih now y) by (intros y; unfold leads, table_at; rewrite (S x (or_introl eq_refl)); auto).
  destruct p as [|y p]; cbn [app] in *; destruct C as (C1 & C2); (split; [apply L; exact C1|]); [exact A|]. apply (IH n n' ih now z q C2); [intros w W; apply S; right; exact W|exact A].
Qed.

(** Two clients of one torrent whose rows of clients have one in common find each
    other. *)
Theorem C136_find_each_other : forall sha who es n a ca c cc x r y s b now, (forall a c, who a = Some c -> fit a c) -> (forall s, length (sha s) = 20) -> (forall e, In e es -> proper e) -> nrun sha who (net_start who) es = Some n ->
  who a = Some ca -> who c = Some cc -> all_room ca -> all_room cc -> (v_tcp ca < 65536)%N -> (v_tcp cc < 65536)%N -> v_info cc = v_info ca -> at_rest n a -> at_rest n c ->
  searches_far n a x (length (x :: r)) -> searches_far n c y (length (y :: s)) -> NoDup (a :: c :: x :: r) -> NoDup (a :: c :: y :: s) ->
  (forall z, In z (x :: r) \/ In z (y :: s) -> helper who n ca z) -> (forall z, In z (x :: r) -> few_peers n z (v_info ca) 214) ->
  chain n (v_info ca) now (x :: r) -> chain n (v_info ca) now (y :: s) -> In b (x :: r) -> In b (y :: s) ->
  exists es' n', nrun sha who n es' = Some n' /\ (forall e, In e es' -> proper e) /\ has_peer n' a (tcp_at c cc) /\ has_peer n' c (tcp_at a ca) /\
    (forall z, ~ In z (a :: c :: (x :: r) ++ y :: s) -> n_hosts n' z = n_hosts n z).
Proof.
  intros sha who es n a ca c cc x r y s b now FIT SHA P R WA WC LA LC TA TC SI RA RC (f & SF & KX & LN & LT) (g & SG & KY & LG & LTG) NX NY HP FEW CX CY B1 B2. rewrite toks_filter in LT, LTG.
  inversion NX as [|? ? NX1 NX2]; subst. inversion NX2 as [|? ? NX3 NX4]; subst. inversion NY as [|? ? NY1 NY2]; subst. inversion NY2 as [|? ? NY3 NY4]; subst.
  assert (NE : a <> c) by (intros ->; apply NX1; left; reflexivity).
  destruct (@walk_run sha who FIT SHA (x :: r) es n a ca f now P R WA LA TA RA SF) as (e1 & n1 & f1 & H1 & H2 & H3 & H4 & H5 & H6 & H7 & H8 & H9 & H10 & H11 & H12); try assumption.
  { intros z t E. injection E as <- _. exact KX. } { intro I. apply NX1. right. exact I. } { intros z I. apply HP. auto. }
  destruct (@first_in (x :: r) (y :: s) b B1 B2) as (p & z & q & E & Z & D).
  assert (P1 : forall e, In e (es ++ e1) -> proper e) by (intros e I; apply in_app_or in I; destruct I as [I|I]; [auto|apply H2; exact I]).
  assert (R1 : nrun sha who (net_start who) (es ++ e1) = Some n1) by (rewrite nrun_app, R; exact H1).
  assert (EC : n_hosts n1 c = n_hosts n c) by (apply H9; [congruence|exact NX3]).
  assert (ZY : In z (y :: s)) by (rewrite E; apply in_or_app; right; left; reflexivity).
  assert (PY : forall w, In w p -> In w (y :: s)) by (intros w W; rewrite E; apply in_or_app; left; exact W).
  assert (EP : forall w, In w p -> n_hosts n1 w = n_hosts n w) by (intros w W; apply H9; [intros ->; apply NY1; right; apply PY; exact W|apply D; exact W]).
  destruct (HP z (or_introl Z)) as (cz & WZ & LZ & IZ & NZ). assert (WK : forall m, idle m z -> working m z) by (intros m ((L & PB & _) & _); split; [exact L|]; rewrite PB; discriminate).
  destruct (@working_map sha who FIT es n z cz P WZ R (WK _ IZ)) as (ND & _). destruct (@stored (gmap (h_sys (n_hosts n z))) (v_info ca) (tcp_at a ca) ND) as (S1 & _ & S2). destruct (H5 z Z) as (EZ & IZ1 & _). rewrite <- EZ in S1, S2.
  assert (L1 : forall l, In (v_info ca, l) (gmap (h_sys (n_hosts n1 z))) -> length l <= 215) by (apply S2; [lia|]; intros l I; apply (FEW z Z) in I; lia).
  assert (LP : length (p ++ [z]) <= length (y :: s)) by (rewrite E, !app_length; cbn; lia).
  destruct (@walk_run sha who FIT SHA (p ++ [z]) (es ++ e1) n1 c cc g now P1 R1 WC LC TC) as (e2 & n2 & g2 & K1 & K2 & K3 & K4 & K5 & K6 & K7 & K8 & K9 & _).
  { unfold at_rest, listening in *. rewrite EC. exact RC. } { unfold search_idle in *. rewrite EC. exact SG. }
  { intros w t E'. assert (w = y) as ->; [|exact KY]. destruct p as [|u p]; cbn [app] in *; congruence. }
  { lia. } { lia. }
  { rewrite E in NY4. replace (p ++ z :: q) with ((p ++ [z]) ++ q) in NY4 by (rewrite <- app_assoc; reflexivity). revert NY4. clear. generalize (p ++ [z]). intro l. induction l as [|u l IH]; intro N; [constructor|]. cbn [app] in N. inversion N; subst. constructor; [|auto]. intro I. apply H1. apply in_or_app. left. exact I. }
  { intro I. apply NY3. apply in_app_or in I. destruct I as [I|[<-|[]]]; [apply PY; exact I|exact ZY]. }
  { intros w I. apply in_app_or in I. unfold helper. rewrite SI. destruct I as [I|[<-|[]]]; [apply (@helper_same who n n1 ca w); [apply EP; exact I|apply HP; right; apply PY; exact I]|]. exists cz. auto. }
  { rewrite SI. rewrite E in CY. apply (@chain_cut p n n1 (v_info ca) now z q CY EP). left. exists (tcp_at a ca). exact S1. }
  assert (IN : In z (p ++ [z])) by (apply in_or_app; right; left; reflexivity). destruct (K5 z IN) as (EZ2 & IZ2 & _). unfold now_holds in EZ2. rewrite SI in EZ2, K3.
  destruct (@working_map sha who FIT (es ++ e1) n1 z cz P1 WZ R1 (WK _ IZ1)) as (ND1 & _). destruct (@stored (gmap (h_sys (n_hosts n1 z))) (v_info ca) (tcp_at c cc) ND1) as (T1 & _ & T2). rewrite <- EZ2 in T1, T2.
  assert (L2 : forall l, In (v_info ca, l) (gmap (h_sys (n_hosts n2 z))) -> length l <= 216) by (apply T2; [lia|]; intros l I; apply L1 in I; lia).
  assert (P2 : forall e, In e ((es ++ e1) ++ e2) -> proper e) by (intros e I; apply in_app_or in I; destruct I as [I|I]; [auto|apply K2; exact I]).
  assert (R2 : nrun sha who (net_start who) ((es ++ e1) ++ e2) = Some n2) by (rewrite nrun_app, R1; exact K1).
  assert (NAP : ~ In a (p ++ [z])) by (intro I; apply NY1; right; apply in_app_or in I; destruct I as [I|[<-|[]]]; [apply PY; exact I|exact ZY]).
  assert (EA : n_hosts n2 a = n_hosts n1 a) by (apply K9; [congruence|exact NAP]).
  assert (NAZ : a <> z) by (intros ->; apply NAP; exact IN). assert (NCZ : c <> z) by (intros ->; apply NX3; exact Z).
  pose proof (H10 z (or_intror Z)) as TZ.
  destruct (@round_run sha who FIT SHA ((es ++ e1) ++ e2) n2 a ca z cz f1 now P2 R2 WA WZ NAZ LA LZ) as (e3 & n3 & f3 & J1 & J2 & J3 & J4 & J5 & J6 & J7 & J8 & J9 & J10 & J11 & J12 & J13 & _).
  { unfold at_rest, listening in *. rewrite EA. exact H6. } { unfold search_idle in *. rewrite EA. exact H7. } { apply has_tok_key. exact TZ. } { apply tok_small; assumption. } { exact IZ2. } { exact NZ. } { exact TA. } { left. exists (tcp_at c cc). exact T1. }
  exists (e1 ++ e2 ++ e3), n3. split; [rewrite nrun_app, H1, nrun_app, K1; exact J1|]. split.
  { intros e I. apply in_app_or in I. destruct I as [I|I]; [apply H2; exact I|]. apply in_app_or in I. destruct I as [I|I]; [apply K2; exact I|apply J2; exact I]. }
  split. { destruct T1 as (l & I & J). eapply J3; [exact I|rewrite firstn_all2 by (apply L2; exact I); exact J]. }
  split. { unfold has_peer. rewrite J13 by congruence. destruct S1 as (l & I & J). eapply K3; [exact IN|exact I|rewrite firstn_all2 by (apply L1 in I; lia); exact J]. }
  intros w W. assert (W' : w <> a /\ w <> c /\ ~ In w (x :: r) /\ ~ In w (y :: s)).
  { cbn [In] in W. rewrite in_app_iff in W. repeat split; intro X; apply W; auto; tauto. }
  destruct W' as (X1 & X2 & X3 & X4). rewrite J13; [|exact X1|intros ->; contradiction]. rewrite K9; [|exact X2|intro I; apply in_app_or in I; destruct I as [I|[<-|[]]]; [apply X4; apply PY; exact I|contradiction]]. apply H9; assumption.
Qed.

(** ** example *)
(** Four clients: the first was told of the fourth, the fourth and the second of
    each other, the third of the second. *)
Definition addr_d : addr := mk_addr x04 x04 x04 x04 7004.
Definition ex_who4 (a : addr) : option client := if addr_eqb a addr_d then Some (cl xdd x33 6004) else ex_who a.
Definition ex_row : list nev := [NDo addr_a YSend; NDo addr_b YSend; NDo addr_c YSend; NDo addr_d YSend] ++ meet addr_a addr_d 0 x61 ++ meet addr_d addr_b 2 x62 ++ meet addr_b addr_d 4 x63 ++ meet addr_c addr_b 6 x65.
Definition leads_b (n : net) (x : addr) (ih : ID) (now : N) (y : addr) : bool :=
  forallb (fun e => negb (bytes_eqb (fst e) ih)) (gmap (h_sys (n_hosts n x))) && forallb (fun m => negb (bytes_eqb (n_id m) ih)) (t_nodes (table_at n x)) &&
  (count (fresh now) (t_nodes (table_at n x)) <=? 8) && existsb (fun m => fresh now m && addr_eqb (n_addr m) y) (t_nodes (table_at n x)).
Lemma leads_ok : forall n x ih now y, leads_b n x ih now y = true -> leads n x ih now y.
Proof.
  intros n x ih now y H. repeat (apply andb_true_iff in H; destruct H as (H & ?)). rewrite forallb_forall in *. split; [|split; [|split]].
  - intros l I. specialize (H _ I). cbn [fst] in H. rewrite bytes_eqb_refl in H. discriminate.
  - intro K. apply in_map_iff in K. destruct K as (m & <- & I). match goal with X : forall m, In m _ -> negb _ = true |- _ => specialize (X _ I); rewrite bytes_eqb_refl in X; discriminate end.
  - apply Nat.leb_le. assumption.
  - match goal with X : existsb _ _ = true |- _ => apply existsb_exists in X; destruct X as (m & I & E) end. apply andb_true_iff in E. destruct E as (E1 & E2). exists m. split; [exact I|]. split; [exact E1|]. apply addr_eqb_spec. exact E2.
Qed.
Lemma search_far : forall n a b k, k <= 15 -> search_b n a b = true -> searches_far n a b k.
Proof.
  intros n a b k K. unfold search_b, searches_far, search_idle. destruct (y_fet _) as [f|]; [|discriminate]. destruct (y_fout _); [|discriminate]. destruct (y_rf _); [|discriminate]. intro H. apply andb_true_iff in H. destruct H as (H1 & H2). destruct (fs_nodes f) as [|[i v] [|? ?]] eqn:E; try discriminate. apply addr_eqb_spec in H2. subst i.
  exists f. rewrite E. split; [repeat split; destruct (fs_busy f); [discriminate|reflexivity]|]. split; [left; reflexivity|]. split; [cbn [length]; lia|]. cbn [filter snd]. destruct (f_token v); cbn [length]; lia.
Qed.
Lemma ex_fit4 : forall a c, ex_who4 a = Some c -> fit a c.
Proof.
  intros a c W. unfold ex_who4 in W. destruct (addr_eqb a addr_d) eqn:E; [|exact (@ex_fit _ _ W)]. apply addr_eqb_spec in E. subst a. injection W as <-.
  split; [repeat split; vm_compute; reflexivity|]. split; [vm_compute; reflexivity|]. split; [constructor; vm_compute; reflexivity|repeat constructor].
Qed.
Lemma ex_row_ends : exists n, nrun ex_sha ex_who4 (net_start ex_who4) ex_row = Some n /\
  (ready_b n addr_a && ready_b n addr_b && ready_b n addr_c && ready_b n addr_d && search_b n addr_a addr_d && search_b n addr_c addr_b && leads_b n addr_d (repeat x11 20) 1 addr_b && (0 <? count (fresh 1) (t_nodes (table_at n addr_b))) &&
   forallb (fun e => List.length (snd e) <=? 214) (gmap (h_sys (n_hosts n addr_b))) && forallb (fun e => List.length (snd e) <=? 214) (gmap (h_sys (n_hosts n addr_d)))
   && match y_peers (h_sys (n_hosts n addr_a)), y_peers (h_sys (n_hosts n addr_c)) with [], [] => true | _, _ => false end) = true.
Proof. apply checked. vm_compute. reflexivity. Qed.
Example C136_example : (forall a c, ex_who4 a = Some c -> fit a c) /\ (forall s, length (ex_sha s) = 20) /\ (forall e, In e ex_row -> proper e) /\
  exists n ca cc, nrun ex_sha ex_who4 (net_start ex_who4) ex_row = Some n /\ ex_who4 addr_a = Some ca /\ ex_who4 addr_c = Some cc /\ all_room ca /\ all_room cc /\ (v_tcp ca < 65536)%N /\ (v_tcp cc < 65536)%N /\ v_info cc = v_info ca /\ at_rest n addr_a /\ at_rest n addr_c /\
    searches_far n addr_a addr_d (length [addr_d; addr_b]) /\ searches_far n addr_c addr_b (length [addr_b]) /\ NoDup [addr_a; addr_c; addr_d; addr_b] /\ NoDup [addr_a; addr_c; addr_b] /\
    (forall z, In z [addr_d; addr_b] \/ In z [addr_b] -> helper ex_who4 n ca z) /\ (forall z, In z [addr_d; addr_b] -> few_peers n z (v_info ca) 214) /\
    chain n (v_info ca) 1 [addr_d; addr_b] /\ chain n (v_info ca) 1 [addr_b] /\ ~ has_peer n addr_a (tcp_at addr_c cc) /\ ~ has_peer n addr_c (tcp_at addr_a ca).
Proof.
  split; [exact ex_fit4|]. split; [exact (proj1 (proj2 C134_example))|]. split; [intros e I; repeat (destruct I as [<-|I]; [exact Logic.I|]); destruct I|].
  destruct ex_row_ends as (n & R & E). repeat (apply andb_true_iff in E; destruct E as (E & ?)). exists n. do 2 eexists. split; [exact R|]. split; [reflexivity|]. split; [reflexivity|].
  assert (RM : forall b ih p, all_room (cl b ih p)) by (intros; unfold all_room; repeat split; apply Nat.ltb_lt; vm_compute; reflexivity).
  split; [apply RM|]. split; [apply RM|]. split; [reflexivity|]. split; [reflexivity|]. split; [reflexivity|]. split; [apply ready_idle; assumption|]. split; [apply ready_idle; assumption|].
  split; [apply search_far; [cbn; lia|assumption]|]. split; [apply search_far; [cbn; lia|assumption]|].
  split. { repeat constructor; cbn; intuition discriminate. } split. { repeat constructor; cbn; intuition discriminate. }
  split. { intros z I. assert (J : z = addr_d \/ z = addr_b) by (cbn in I; intuition auto). destruct J as [-> | ->]; eexists; (split; [reflexivity|]); (split; [apply RM|]); (split; [apply ready_idle; assumption|discriminate]). }
  split. { unfold few_peers. intros z I l J. assert (Q : forallb (fun e => List.length (snd e) <=? 214) (gmap (h_sys (n_hosts n z))) = true) by (destruct I as [<-|[<-|[]]]; assumption). rewrite forallb_forall in Q. specialize (Q _ J). apply Nat.leb_le in Q. exact Q. }
  assert (HB : has_answer n addr_b (repeat x11 20) 1) by (right; apply Nat.ltb_lt; assumption).
  split; [split; [apply leads_ok; assumption|exact HB]|]. split; [exact HB|].
  unfold has_peer. destruct (y_peers (h_sys (n_hosts n addr_a))); [|discriminate]. destruct (y_peers (h_sys (n_hosts n addr_c))); [|discriminate]. cbn. split; intros [].
Qed.

Print Assumptions C136_walk.
Print Assumptions C136_find_each_other.
