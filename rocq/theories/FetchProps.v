(** C51, C81: searching peers in the DHT. *)
From Coq Require Import List NArith ZArith Lia Bool Arith Permutation Sorted.
From Coq Require Import Init.Byte.
From Verif Require Import Base Assoc BitSpec IdModel IdProofs IdProps WireModel TableModel TableSpec TableProofs TableProofs2 TableProps LookupProps
  PeersModel PeersSpec PeersProofs PeersProps BencodeModel KrpcModel DhtModel DhtMgrModel FetchModel FetchSpec.
Import ListNotations.
Set Implicit Arguments.

(** ** sorting *)
Definition fkey (ih : ID) (e : addr * fnode) : N := (N.of_nat (rank (snd e)) * 200 + N.size (far ih (snd e)))%N.
Definition wf_entry (e : addr * fnode) : Prop := wf_id (f_id (snd e)).
Lemma far_size : forall ih e, wf_id ih -> wf_entry e -> (N.size (far ih (snd e)) <= 160)%N.
Proof. intros ih e W E. apply size_le160; auto. Qed.
Lemma f_cmp_key : forall ih a b, wf_id ih -> wf_entry a -> wf_entry b -> f_cmp ih a b = N.compare (fkey ih a) (fkey ih b).
Proof.
  intros ih a b W A B. pose proof (far_size W A) as SA. pose proof (far_size W B) as SB.
  assert (E : id_cmp (id_sub (f_id (snd a)) ih) (id_sub (f_id (snd b)) ih) = N.compare (N.size (far ih (snd a))) (N.size (far ih (snd b)))).
  { pose proof (@cmp_dist ih (mk_node (f_id (snd a)) (fst a) None) (mk_node (f_id (snd b)) (fst b) None) W A B) as C. exact C. }
  unfold f_cmp. unfold fkey. destruct a as [aa na], b as [ab nb]. cbn [snd fst] in *.
  destruct na, nb; cbn [cmp_discriminant rank]; cbv iota; rewrite ?E; symmetry;
    try (apply N.compare_lt_iff; cbn; lia); try (apply N.compare_gt_iff; cbn; lia);
    match goal with |- (_ * 200 + ?x ?= _ * 200 + ?y)%N = _ => destruct (N.compare_spec x y) end;
    first [apply N.compare_eq_iff | apply N.compare_lt_iff | apply N.compare_gt_iff]; cbn; lia.
Qed.
Lemma sorted_prefix : forall A (R : A -> A -> Prop) n l a b, StronglySorted R l -> In a (firstn n l) -> In b (skipn n l) -> R a b.
Proof.
  intros A R n l a b S. rewrite <- (firstn_skipn n l) in S. remember (firstn n l) as x. remember (skipn n l) as y. clear Heqx Heqy.
  induction x as [|z x IH]; intros X Y; [destruct X|]. cbn [app] in S. inversion S; subst. destruct X as [->|X]; [|auto].
  rewrite Forall_forall in H2. apply H2. apply in_or_app. auto.
Qed.
(** Sorted by key means: by rank, then by distance up to a factor of two. *)
Lemma key_le : forall ih a b, wf_id ih -> wf_entry a -> wf_entry b -> (fkey ih a <= fkey ih b)%N ->
  rank (snd a) <= rank (snd b) /\ (rank (snd a) = rank (snd b) -> (far ih (snd a) <= 2 * far ih (snd b))%N).
Proof.
  intros ih a b W A B L. pose proof (far_size W A) as SA. pose proof (far_size W B) as SB. unfold fkey in L. split.
  - destruct (Nat.le_gt_cases (rank (snd a)) (rank (snd b))); [auto|exfalso]. assert (N.of_nat (rank (snd b)) + 1 <= N.of_nat (rank (snd a)))%N by lia. nia.
  - intro E. rewrite E in L. assert (S : (N.size (far ih (snd a)) <= N.size (far ih (snd b)))%N) by lia. clear - S.
    pose proof (N.size_gt (far ih (snd a))) as G. pose proof (N.size_le (far ih (snd b))) as H.
    assert (P : (2 ^ N.size (far ih (snd a)) <= 2 ^ N.size (far ih (snd b)))%N) by (apply N.pow_le_mono_r; lia).
    destruct (N.eq_dec (far ih (snd b)) 0) as [Z|Z].
    + rewrite Z in *. cbn in *. destruct (far ih (snd a)); [lia|]. cbn in S. destruct p; cbn in S; lia.
    + rewrite N.succ_double_spec in H. assert (M : exists k, (2 ^ N.size (far ih (snd b)) = 2 * k)%N).
      { destruct (N.size (far ih (snd b))) as [|p] eqn:Q; [destruct (far ih (snd b)); [congruence|discriminate]|].
        exists (2 ^ (N.pos p - 1))%N. rewrite <- N.pow_succ_r'. f_equal. lia. }
      destruct M as (k & M). lia.
Qed.
Section sorted.
Variables (m : node_map) (ih : ID).
Hypothesis W : wf_id ih.
Hypothesis F : Forall wf_entry m.
Lemma sorted_perm : Permutation (get_sorted_nodes m ih) m.
Proof. apply sort_perm. Qed.
Lemma sorted_keys : StronglySorted (fun a b => (fkey ih a <= fkey ih b)%N) (get_sorted_nodes m ih).
Proof. apply (@sort_sorted _ (fkey ih) (f_cmp ih) wf_entry); auto. intros a b A B. apply f_cmp_key; auto. Qed.
Lemma sorted_wf : Forall wf_entry (get_sorted_nodes m ih).
Proof. eapply Permutation_Forall; [symmetry; apply sorted_perm|exact F]. Qed.
End sorted.

(** ** one answer *)
Lemma asked_app : forall a b, asked (a ++ b) = asked a ++ asked b.
Proof. intros. apply flat_map_app. Qed.
Lemma asked_announce : forall p ih m, asked (announce_peer p ih m) = [].
Proof. intros. unfold announce_peer, asked. rewrite flat_map_concat_map, map_map, <- flat_map_concat_map. induction (firstn _ _); auto. Qed.
Lemma asked_map : forall ih l, asked (map (fun a => CQuery a (QGetPeers ih)) l) = l.
Proof. intros. unfold asked. rewrite flat_map_concat_map, map_map, <- flat_map_concat_map. cbn. induction l; cbn; congruence. Qed.
Lemma ann_gets : forall l, (forall c, In c l -> exists a ih, c = CQuery a (QGetPeers ih)) -> announcements l = [].
Proof. induction l as [|c l IH]; intro H; auto. cbn. destruct (H c) as (a & ih & ->); [left; auto|]. apply IH. intros. apply H. right. auto. Qed.
Lemma ann_app : forall a b, announcements (a ++ b) = announcements a ++ announcements b.
Proof. intros. apply flat_map_app. Qed.
Lemma new_nodes_spec : forall ih l m, NoDup (keys m) -> let r := new_nodes ih l m in
  NoDup (keys (fst r)) /\ keys (fst r) = keys m ++ asked (snd r) /\
  (forall e, In e (fst r) -> In e m \/ exists n, In n l /\ e = (n_addr n, FUnknown (n_id n))) /\
  (forall c, In c (snd r) -> exists a, c = CQuery a (QGetPeers ih)) /\
  (forall n, In n l -> In (n_addr n) (keys (fst r))) /\ incl m (fst r).
Proof.
  intros ih. induction l as [|n l IH]; intros m N; cbn [new_nodes].
  - cbn. rewrite app_nil_r. repeat split; auto; try contradiction. apply incl_refl.
  - destruct (mhas addr_eqb (n_addr n) m) eqn:E.
    + destruct (IH m N) as (A & B & C & D & F & G). repeat split; auto.
      * intros e X. destruct (C e X) as [|(x & Y & Z)]; auto. right. exists x. split; auto. right. auto.
      * intros x [->|X]; [|auto]. rewrite B. apply in_or_app. left. apply (mhas_in _ addr_eqb_spec). auto.
    + assert (EQ : mset addr_eqb (n_addr n) (FUnknown (n_id n)) m = m ++ [(n_addr n, FUnknown (n_id n))]).
      { clear - E. unfold mhas in E. induction m as [|[k v] m IHm]; auto. cbn in *. destruct (addr_eqb (n_addr n) k); [discriminate|]. f_equal. auto. }
      destruct (IH (mset addr_eqb (n_addr n) (FUnknown (n_id n)) m)) as (A & B & C & D & F & G); [apply (NoDup_mset _ addr_eqb_spec); auto|].
      cbn [fst snd]. split; [exact A|]. split.
      { rewrite B, keys_mset, E. cbn. rewrite <- app_assoc. reflexivity. }
      split.
      { intros e X. destruct (C e X) as [Y|(x & Y & Z)].
        - rewrite EQ in Y. apply in_app_or in Y. destruct Y as [|[<-|[]]]; auto. right. exists n. split; auto. left. auto.
        - right. exists x. split; auto. right. auto. }
      split. { intros c [<-|X]; eauto. }
      split. { intros x [->|X]; [|auto]. rewrite B. apply in_or_app. left. rewrite keys_mset, E. apply in_or_app. right. left. auto. }
      intros x X. apply G. rewrite EQ. apply in_or_app. auto.
Qed.
Lemma mset_entries : forall (a : addr) (v : fnode) m e, NoDup (keys m) -> In e (mset addr_eqb a v m) -> e = (a, v) \/ (In e m /\ fst e <> a).
Proof.
  intros a v m [k w] N I. assert (N2 := @NoDup_mset _ _ addr_eqb addr_eqb_spec a v m N). apply (in_mget addr_eqb addr_eqb_spec _ _ _ N2) in I.
  destruct (addr_dec k a) as [->|NE].
  - rewrite mget_mset_same in I by apply addr_eqb_spec. injection I as ->. auto.
  - rewrite mget_mset_other in I by (auto; apply addr_eqb_spec). right. split; auto. eapply mget_in; eauto. apply addr_eqb_spec.
Qed.
Lemma trim_spec : forall m ih, wf_id ih -> Forall wf_entry m -> NoDup (keys m) -> let k := forget_far_nodes m ih in
  length k = Nat.min 128 (length m) /\ incl k m /\ NoDup (keys k) /\
  (forall a b, In a k -> In b m -> ~ In b k -> (fkey ih a <= fkey ih b)%N).
Proof.
  intros m ih W F N k. pose proof (sorted_perm m ih) as P. unfold k, forget_far_nodes. change ACTIVE_CLOSE_NODES_CAP_LOW with 128.
  split; [rewrite firstn_length, (Permutation_length P); reflexivity|].
  assert (NS : NoDup (keys (get_sorted_nodes m ih))) by (eapply Permutation_NoDup; [apply Permutation_map; symmetry; exact P|exact N]).
  split; [|split].
  - intros x X. eapply Permutation_in; [exact P|]. rewrite <- (firstn_skipn 128 (get_sorted_nodes m ih)). apply in_or_app. auto.
  - rewrite <- (firstn_skipn 128 (get_sorted_nodes m ih)) in NS. rewrite keys_app in NS. eapply NoDup_app_l; eauto.
  - intros a b A B NB. refine (@sorted_prefix _ _ 128 _ a b (@sorted_keys m ih W F) A _).
    eapply Permutation_in in B; [|symmetry; exact P]. rewrite <- (firstn_skipn 128 (get_sorted_nodes m ih)) in B. apply in_app_or in B. tauto.
Qed.

(** ** invariant over histories *)
Section hist.
Variable usize_max : nat.
Variables (ih : ID) (port : N) (start : list node) (m0 : peers).
Hypothesis W : wf_id ih.
Hypothesis WS : Forall (fun n => wf_id (n_id n)) start.
Hypothesis LS : length start < 512.
Hypothesis N0 : NoDup (map fst m0).
Notation Runs := (fruns usize_max ih port start m0).

Record finv (h : fhist) (s : fetcher) : Prop := {
  fi_info : fs_info s = ih;
  fi_port : fs_port s = port;
  fi_nodup : NoDup (keys (fs_nodes s));
  fi_wf : Forall wf_entry (fs_nodes s);
  fi_tok : forall a n t, In (a, n) (fs_nodes s) -> f_token n = Some t -> last_token a h = Some t;
  fi_len : length (fs_nodes s) < 512;
  fi_pnodup : NoDup (map fst (fs_peers s));
  fi_peers : forall p, In p (map fst (fs_peers s)) -> In p (map fst m0) \/ In p (learnt h) \/ In p (f_shared h);
  fi_busy : fs_busy s = true -> incl (keys (fs_nodes s)) (asked_this_round h) /\
    (512 <= length (asked_this_round h) \/ Permutation (asked_this_round h) (keys (fs_nodes s)))
}.
Lemma start_map : forall l m, NoDup (keys m) -> Forall (fun n => wf_id (n_id n)) l -> Forall wf_entry m -> (forall a n, In (a, n) m -> f_token n = None) ->
  let r := fold_left (fun a n => mset addr_eqb (n_addr n) (FUnknown (n_id n)) a) l m in
  NoDup (keys r) /\ Forall wf_entry r /\ (forall a n, In (a, n) r -> f_token n = None) /\ length r <= length m + length l.
Proof.
  induction l as [|x l IH]; intros m N F1 F2 T; cbn [fold_left].
  - cbn. repeat split; auto. lia.
  - inversion F1; subst. destruct (IH (mset addr_eqb (n_addr x) (FUnknown (n_id x)) m)) as (A & B & C & D).
    + apply (NoDup_mset _ addr_eqb_spec); auto.
    + auto.
    + apply Forall_forall. intros e E. apply mset_entries in E; auto. destruct E as [->|[E _]]; [exact H1|]. rewrite Forall_forall in F2. auto.
    + intros a n E. apply mset_entries in E; auto. destruct E as [E|[E _]]; [injection E as -> ->; reflexivity|eauto].
    + repeat split; auto. rewrite length_mset in D. cbn [length]. destruct (mhas _ _ _); lia.
Qed.
Lemma finv_start : finv [] (f_start ih port start m0).
Proof.
  destruct (@start_map start [] (NoDup_nil _) WS (Forall_nil _)) as (A & B & C & D); [contradiction|]. cbn [length Nat.add] in D.
  constructor; cbn; auto; try congruence; try lia. intros a n t I T. rewrite (C a n I) in T. discriminate.
Qed.
(** The node map after an answer, before trimming. *)
Definition grown (s : fetcher) (old : fnode) (from : addr) (token : bytes) (v : von) : node_map :=
  match v with
  | VValues l => mset addr_eqb from (FHasPeers (f_id old) token) (fs_nodes s)
  | VNodes n => fst (new_nodes (fs_info s) (nodes_list n) (mset addr_eqb from (FPeerless (f_id old) token) (fs_nodes s)))
  end.
Definition queries (s : fetcher) (old : fnode) (from : addr) (token : bytes) (v : von) : list to_con :=
  match v with
  | VValues l => []
  | VNodes n => snd (new_nodes (fs_info s) (nodes_list n) (mset addr_eqb from (FPeerless (f_id old) token) (fs_nodes s)))
  end.
Definition peers_after (s : fetcher) (v : von) : peers := match v with VValues l => q_extend (fs_peers s) l | VNodes _ => fs_peers s end.
Definition answer_node (old : fnode) (token : bytes) (v : von) : fnode := match v with VValues _ => FHasPeers (f_id old) token | VNodes _ => FPeerless (f_id old) token end.
Lemma grown_spec : forall h s old from token v, finv h s -> mget addr_eqb from (fs_nodes s) = Some old -> wf_fev (FResp (FGetPeers from token v)) ->
  let m := grown s old from token v in let q := queries s old from token v in
  NoDup (keys m) /\ Forall wf_entry m /\ Permutation (keys m) (keys (fs_nodes s) ++ asked q) /\
  (forall e, In e m -> e = (from, answer_node old token v) \/ (In e (fs_nodes s) /\ fst e <> from) \/
     exists n x, v = VNodes n /\ In x (nodes_list n) /\ e = (n_addr x, FUnknown (n_id x))) /\
  (forall c, In c q -> exists a, c = CQuery a (QGetPeers (fs_info s))) /\ In (from, answer_node old token v) m /\
  (forall n x, v = VNodes n -> In x (nodes_list n) -> In (n_addr x) (keys m)).
Proof.
  intros h s old from token v G E WF m q.
  assert (WO : wf_id (f_id old)). { apply (mget_in _ addr_eqb_spec) in E. pose proof (fi_wf G) as F. rewrite Forall_forall in F. apply (F _ E). }
  assert (K : forall x : fnode, keys (mset addr_eqb from x (fs_nodes s)) = keys (fs_nodes s)).
  { intro x. rewrite keys_mset. unfold mhas. rewrite E. auto. }
  assert (ND : forall x : fnode, NoDup (keys (mset addr_eqb from x (fs_nodes s)))) by (intro; rewrite K; apply (fi_nodup G)).
  assert (IN : forall x : fnode, In (from, x) (mset addr_eqb from x (fs_nodes s))).
  { intro x. apply (mget_in addr_eqb addr_eqb_spec). apply mget_mset_same. apply addr_eqb_spec. }
  assert (WW : forall x : fnode, wf_id (f_id x) -> Forall wf_entry (mset addr_eqb from x (fs_nodes s))).
  { intros x X. apply Forall_forall. intros e I. apply mset_entries in I; [|apply (fi_nodup G)]. destruct I as [->|[I _]]; [exact X|].
    pose proof (fi_wf G) as F. rewrite Forall_forall in F. auto. }
  destruct v as [l|n]; subst m q; cbn [grown queries answer_node].
  - repeat split; auto.
    + rewrite K, app_nil_r. apply Permutation_refl.
    + intros e I. apply mset_entries in I; [|apply (fi_nodup G)]. tauto.
    + contradiction.
    + discriminate.
  - cbn [wf_fev] in WF. destruct (@new_nodes_spec (fs_info s) (nodes_list n) _ (ND (FPeerless (f_id old) token))) as (A & B & C & D & F & H).
    rewrite K in B. repeat split; auto.
    + apply Forall_forall. intros e I. destruct (C e I) as [I2|(x & X & ->)].
      * pose proof (WW (FPeerless (f_id old) token) WO) as Q. rewrite Forall_forall in Q. auto.
      * rewrite Forall_forall in WF. apply (WF x X).
    + rewrite B. apply Permutation_refl.
    + intros e I. destruct (C e I) as [I2|(x & X & ->)].
      * apply mset_entries in I2; [|apply (fi_nodup G)]. tauto.
      * right. right. exists n, x. auto.
    + intros x y Q. injection Q as ->. auto.
Qed.
Lemma peers_after_spec : forall s v, NoDup (map fst (fs_peers s)) -> NoDup (map fst (peers_after s v)) /\
  forall p, In p (map fst (peers_after s v)) <-> (exists l, v = VValues l /\ In p l) \/ In p (map fst (fs_peers s)).
Proof.
  intros s v N. destruct v as [l|n]; cbn [peers_after].
  - destruct (@extend_keys l _ N) as (A & B). split; auto. intro p. rewrite B. split; intros [X|X]; eauto. destruct X as (l2 & E & X). injection E as ->. auto.
  - split; auto. intro p. split; auto. intros [(l & E & _)|X]; [discriminate|auto].
Qed.
(** What an accepted answer does, in one equation. *)
Lemma answer_step : forall h s old from token v, finv h s -> fs_busy s = true -> mget addr_eqb from (fs_nodes s) = Some old ->
  exists ps b, NoDup (map fst ps) /\ map fst ps = map fst (peers_after s v) /\
  (length (grown s old from token v) < 512 -> b = true /\ ps = peers_after s v) /\
  let m := if 512 <=? length (grown s old from token v) then forget_far_nodes (grown s old from token v) ih else grown s old from token v in
  fstep usize_max s (FResp (FGetPeers from token v)) =
    Val (mk_fet ih port m ps b, queries s old from token v ++ if b then [] else announce_peer port ih m).
Proof.
  intros h s old from token v G B E. destruct (@peers_after_spec s v (fi_pnodup G)) as (PN & _).
  destruct (@good_spec usize_max _ PN) as (m' & out & EQ & GB).
  assert (EO : fstep usize_max s (FResp (FGetPeers from token v)) =
    rmap (fun r : fetcher * bool * list to_con => let '(s', go, q) := r in if go then (s', q) else let e := end_round s' in (fst e, q ++ snd e))
     (if 512 <=? length (grown s old from token v) then
        rmap (fun r => (mk_fet (fs_info s) (fs_port s) (forget_far_nodes (grown s old from token v) (fs_info s)) (fst r) true, negb (snd r), queries s old from token v))
          (q_enough usize_max (peers_after s v))
      else Val (mk_fet (fs_info s) (fs_port s) (grown s old from token v) (peers_after s v) true, true, queries s old from token v))).
  { cbn [fstep]. rewrite B, E. unfold on_answer, grown, queries, peers_after. destruct v; reflexivity. }
  rewrite EO. rewrite (fi_info G), (fi_port G). destruct (512 <=? length (grown s old from token v)) eqn:L.
  - unfold q_enough, q_good. rewrite EQ. cbn [rmap fst snd]. apply Nat.leb_le in L.
    match goal with |- context [negb ?c] => destruct c end; cbn [negb].
    + exists m', false. split; [rewrite (gb_same_peers GB); auto|]. split; [apply (gb_same_peers GB)|]. split; [lia|]. reflexivity.
    + exists m', true. split; [rewrite (gb_same_peers GB); auto|]. split; [apply (gb_same_peers GB)|]. split; [lia|]. rewrite app_nil_r. reflexivity.
  - exists (peers_after s v), true. split; auto. split; auto. split; auto. cbn [rmap]. rewrite app_nil_r. reflexivity.
Qed.
Lemma finv_frame : forall h s e o, finv h s -> (forall from token v, e <> FResp (FGetPeers from token v)) -> e <> FTick -> asked o = [] ->
  forall m ps b, m = fs_nodes s -> NoDup (map fst ps) -> (b = true -> fs_busy s = true) ->
  (forall p, In p (map fst ps) -> In p (f_shared [(e, o)]) \/ In p (map fst (fs_peers s))) ->
  finv ((e, o) :: h) (mk_fet ih port m ps b).
Proof.
  intros h s e o G N1 N2 A m ps b -> ND B P.
  assert (LT : forall a, last_token a ((e, o) :: h) = last_token a h).
  { intro a. destruct e as [|r| |]; try reflexivity. destruct r; try reflexivity. exfalso. eapply N1. reflexivity. }
  assert (LE : learnt ((e, o) :: h) = learnt h).
  { destruct e as [|r| |]; try reflexivity. destruct r; try reflexivity. exfalso. eapply N1. reflexivity. }
  assert (AR : asked_this_round ((e, o) :: h) = asked_this_round h).
  { destruct e; try congruence; cbn [asked_this_round]; rewrite A; reflexivity. }
  constructor; cbn [fs_info fs_port fs_nodes fs_peers fs_busy]; auto; try apply G.
  - intros a n t. rewrite LT. apply (fi_tok G).
  - intros p X. rewrite LE. destruct (P p X) as [Y|Y].
    + right. right. cbn in Y. rewrite app_nil_r in Y. cbn. apply in_or_app. auto.
    + destruct (fi_peers G p Y) as [|[|]]; auto. right. right. cbn. apply in_or_app. auto.
  - intro X. rewrite AR. apply (fi_busy G). auto.
Qed.
Lemma answer_inv : forall h s old from token v s' o, finv h s -> fs_busy s = true -> mget addr_eqb from (fs_nodes s) = Some old ->
  wf_fev (FResp (FGetPeers from token v)) -> fstep usize_max s (FResp (FGetPeers from token v)) = Val (s', o) ->
  finv ((FResp (FGetPeers from token v), o) :: h) s'.
Proof.
  intros h s old from token v s' o G B E WF ST.
  destruct (@answer_step h s old from token v G B E) as (ps & b & PN & PK & PL & EQ). cbv zeta in EQ.
  destruct (@grown_spec h s old from token v G E WF) as (ND & FW & PM & OR & QG & IN & _).
  destruct (@peers_after_spec s v (fi_pnodup G)) as (PA & PB).
  set (m := grown s old from token v) in *. set (q := queries s old from token v) in *.
  set (m' := if 512 <=? length m then forget_far_nodes m ih else m) in *.
  rewrite EQ in ST. assert (S1 : s' = mk_fet ih port m' ps b) by congruence. assert (S2 : o = q ++ (if b then [] else announce_peer port ih m')) by congruence. clear ST. subst s' o.
  destruct (@trim_spec m ih W FW ND) as (T1 & T2 & T3 & _).
  assert (IM : incl m' m). { unfold m'. destruct (512 <=? length m); auto. apply incl_refl. }
  assert (LM : length m' < 512).
  { unfold m'. destruct (512 <=? length m) eqn:L; [rewrite T1; apply Nat.le_lt_trans with 128; [apply Nat.le_min_l|lia]|]. apply Nat.leb_gt in L. exact L. }
  assert (NM : NoDup (keys m')) by (unfold m'; destruct (512 <=? length m); auto).
  assert (AQ : asked (q ++ (if b then [] else announce_peer port ih m')) = asked q).
  { rewrite asked_app. destruct b; [|rewrite asked_announce]; apply app_nil_r. }
  destruct (fi_busy G B) as (BI & BP).
  assert (FA : In from (asked_this_round h)). { apply BI. apply (mget_some_key _ addr_eqb_spec) in E. exact E. }
  constructor; cbn [fs_info fs_port fs_nodes fs_peers fs_busy]; auto.
  - apply Forall_forall. intros e X. rewrite Forall_forall in FW. auto.
  - intros a n t X T. cbn [last_token]. apply IM in X. destruct (OR _ X) as [Y|[(Y & Z)|(z & x & _ & _ & Z)]].
    + injection Y as -> ->. rewrite (eqb_rfl _ addr_eqb_spec). destruct v; cbn in T; exact T.
    + cbn in Z. rewrite (eqb_neq _ addr_eqb_spec) by auto. eapply (fi_tok G); eauto.
    + injection Z as -> ->. discriminate.
  - intros p X. rewrite PK in X. apply PB in X. destruct X as [(l & -> & X)|X].
    + right. left. cbn [learnt]. destruct (in_dec addr_dec from (asked_this_round h)); [|contradiction]. apply in_or_app. auto.
    + destruct (fi_peers G p X) as [|[Y|Y]]; auto. right. left. cbn [learnt]. destruct v; auto. apply in_or_app. auto.
  - intros _. cbn [asked_this_round]. rewrite AQ. split.
    + intros a A. assert (AM : In a (keys m)). { unfold keys in *. apply in_map_iff in A. destruct A as (x & <- & X). apply in_map. auto. }
      eapply Permutation_in in AM; [|exact PM]. apply in_app_or in AM. apply in_or_app. destruct AM; auto.
    + rewrite app_length. destruct BP as [BP|BP]; [left; lia|]. unfold m'. destruct (512 <=? length m) eqn:L.
      * left. apply Nat.leb_le in L. apply Permutation_length in PM. rewrite app_length in PM. apply Permutation_length in BP. unfold keys in PM, BP. rewrite !map_length in PM. rewrite map_length in BP. lia.
      * right. rewrite PM, BP. apply Permutation_app_comm.
Qed.
Lemma step_inv : forall h s e s' o, finv h s -> wf_fev e -> fstep usize_max s e = Val (s', o) -> finv ((e, o) :: h) s'.
Proof.
  intros h s e s' o G WF ST. destruct e as [|r| |op].
  - cbn [fstep] in ST. destruct (fs_busy s) eqn:B; [discriminate|]. injection ST as <- <-.
    constructor; cbn [fs_info fs_port fs_nodes fs_peers fs_busy]; try apply G.
    intros _. cbn [asked_this_round]. rewrite asked_map. split; [apply incl_refl|right; apply Permutation_refl].
  - assert (B : fs_busy s = true). { cbn [fstep] in ST. destruct r, (fs_busy s); auto; discriminate. }
    assert (KEEP : s' = s /\ o = [] -> (forall from token v, r = FGetPeers from token v -> ~ In from (keys (fs_nodes s))) -> finv ((FResp r, o) :: h) s').
    { intros (-> & ->) NF. destruct s as [i p m ps b]. cbn [fs_nodes fs_busy] in *.
      constructor; cbn [fs_info fs_port fs_nodes fs_peers fs_busy]; try apply G.
      - intros a n t I T. pose proof (fi_tok G a n I T) as Q. cbn [last_token]. destruct r; auto.
        rewrite (eqb_neq _ addr_eqb_spec); [exact Q|]. intros ->. eapply NF; [reflexivity|]. unfold keys. apply in_map_iff. exists (from, n). auto.
      - intros x X. destruct (fi_peers G x X) as [|[Y|Y]]; auto. right. left. cbn [learnt]. destruct r; auto. destruct v; auto. apply in_or_app. auto. }
    destruct r as [from id|nodes from id|from token v].
    3: { destruct (mget addr_eqb from (fs_nodes s)) as [old|] eqn:E; [eapply answer_inv; eauto|].
      apply KEEP; [cbn [fstep] in ST; rewrite B, E in ST; injection ST; auto|]. intros f t w Q. injection Q as -> -> ->. apply (mget_none _ addr_eqb_spec) in E. exact E. }
    all: cbn [fstep] in ST; rewrite B in ST; apply KEEP; [injection ST; auto|discriminate].
  - cbn [fstep] in ST. destruct (fs_busy s) eqn:B; [|discriminate]. injection ST as <- <-. rewrite (fi_info G), (fi_port G).
    eapply finv_frame; eauto; try discriminate. apply asked_announce. apply G.
  - cbn [fstep] in ST. destruct (@step_keys (fs_peers s) op (fi_pnodup G)) as (m' & out & E & ND & K). rewrite E in ST.
    cbn [rmap fst] in ST. assert (Q : (mk_fet (fs_info s) (fs_port s) (fs_nodes s) m' (fs_busy s), []) = (s', o)) by (destruct (fs_busy s); injection ST; congruence).
    injection Q as <- <-. rewrite (fi_info G), (fi_port G). eapply finv_frame; eauto; try discriminate.
    intros p P. apply K in P. destruct P; auto. left. cbn. rewrite app_nil_r. auto.
Qed.
Lemma runs_finv : forall h s, Runs h s -> finv h s.
Proof.
  induction 1 as [|h s e s' o H IH WF ST|h s m p H IH PM PP].
  - apply finv_start.
  - eapply step_inv; eauto.
  - assert (PK : Permutation (keys (fs_nodes s)) (keys m)) by (apply Permutation_map; auto).
    constructor; cbn [fs_info fs_port fs_nodes fs_peers fs_busy]; try apply IH.
    + eapply Permutation_NoDup; [exact PK|apply IH].
    + eapply Permutation_Forall; [exact PM|apply IH].
    + intros a n t I. apply (fi_tok IH). eapply Permutation_in; [symmetry; exact PM|exact I].
    + rewrite <- (Permutation_length PM). apply IH.
    + eapply Permutation_NoDup; [apply Permutation_map; exact PP|apply IH].
    + intros x X. apply (fi_peers IH). eapply Permutation_in; [symmetry; apply Permutation_map; exact PP|exact X].
    + intro B. destruct (fi_busy IH B) as (X & Y). split.
      * intros a A. apply X. eapply Permutation_in; [symmetry; exact PK|exact A].
      * destruct Y as [|Y]; auto. right. rewrite Y. exact PK.
Qed.

(** The candidates after an answer: what was remembered, with the answering
    node updated, and the nodes it named that were not remembered. *)
Definition candidates (s : fetcher) (from : addr) (token : bytes) (v : von) (o : list to_con) (m : node_map) : Prop :=
  NoDup (keys m) /\ Permutation (keys m) (keys (fs_nodes s) ++ asked o) /\
  forall a n, In (a, n) m ->
    (a = from /\ f_token n = Some token /\ rank n = match v with VValues _ => 0 | VNodes _ => 1 end) \/
    (a <> from /\ In (a, n) (fs_nodes s)) \/
    (exists l x, v = VNodes l /\ In x (nodes_list l) /\ a = n_addr x /\ n = FUnknown (n_id x)).
(** Full statement: nothing that is forgotten is better than anything kept. *)
Definition C51_trim_always (s : fetcher) (from : addr) (token : bytes) (v : von) (s' : fetcher) (o : list to_con) : Prop :=
  forall m a b, candidates s from token v o m -> In a (fs_nodes s') -> In b m -> ~ In b (fs_nodes s') -> ~ better ih (snd b) (snd a).
(** Nothing is forgotten below 512 candidates; otherwise 128 are kept, none of
    them of a worse kind than a forgotten one, and none of the same kind more
    than twice as far away. *)
Theorem C51_trim_partial : forall h s from token v s' o, Runs h s -> In from (keys (fs_nodes s)) ->
  wf_fev (FResp (FGetPeers from token v)) -> fstep usize_max s (FResp (FGetPeers from token v)) = Val (s', o) ->
  exists m, candidates s from token v o m /\
    (length m < 512 -> fs_nodes s' = m) /\
    (512 <= length m -> length (fs_nodes s') = 128 /\ incl (fs_nodes s') m /\ NoDup (keys (fs_nodes s')) /\
       forall a b, In a (fs_nodes s') -> In b m -> ~ In b (fs_nodes s') ->
         rank (snd a) <= rank (snd b) /\ (rank (snd a) = rank (snd b) -> (far ih (snd a) <= 2 * far ih (snd b))%N)).
Proof.
  intros h s from token v s' o H K WF ST. pose proof (runs_finv H) as G.
  destruct (key_mget _ addr_eqb_spec _ _ K) as (old & E).
  assert (B : fs_busy s = true). { cbn [fstep] in ST. destruct (fs_busy s); auto; discriminate. }
  destruct (@answer_step h s old from token v G B E) as (ps & b & PN & PK & PL & EQ). cbv zeta in EQ.
  destruct (@grown_spec h s old from token v G E WF) as (ND & FW & PM & OR & QG & IN & _).
  set (m := grown s old from token v) in *. set (q := queries s old from token v) in *.
  set (m' := if 512 <=? length m then forget_far_nodes m ih else m) in *.
  rewrite EQ in ST. assert (S1 : s' = mk_fet ih port m' ps b) by congruence. assert (S2 : o = q ++ (if b then [] else announce_peer port ih m')) by congruence.
  clear ST EQ. subst s' o. cbn [fs_nodes].
  destruct (@trim_spec m ih W FW ND) as (T1 & T2 & T3 & T4).
  exists m. split; [|split].
  - split; [exact ND|]. split.
    + rewrite asked_app. replace (asked (if b then [] else announce_peer port ih m')) with (@nil addr) by (destruct b; [|rewrite asked_announce]; reflexivity).
      rewrite app_nil_r. exact PM.
    + intros a n I. destruct (OR _ I) as [Y|[Y|(l & x & X1 & X2 & X3)]].
      * left. injection Y as -> ->. destruct v; auto.
      * right. left. cbn in Y. tauto.
      * right. right. exists l, x. injection X3 as -> ->. auto.
  - intro L. unfold m'. apply Nat.leb_gt in L. rewrite L. reflexivity.
  - intro L. assert (M : m' = forget_far_nodes m ih). { unfold m'. apply Nat.leb_le in L. rewrite L. reflexivity. }
    rewrite M. split; [rewrite T1; apply Nat.min_l; lia|]. split; [exact T2|]. split; [exact T3|].
    intros x y X Y NY. rewrite Forall_forall in FW. apply key_le; auto.
Qed.
(** Answers from addresses that are not remembered change nothing. *)
Theorem C51_ignored : forall h s from token v, Runs h s -> fs_busy s = true -> ~ In from (keys (fs_nodes s)) ->
  fstep usize_max s (FResp (FGetPeers from token v)) = Val (s, []).
Proof. intros h s from token v H B K. cbn [fstep]. rewrite B. apply (mget_none _ addr_eqb_spec) in K. rewrite K. reflexivity. Qed.

(** ** announcing *)
Definition with_token (m : node_map) (ih : ID) : list (addr * bytes) :=
  flat_map (fun e => match f_token (snd e) with Some t => [(fst e, t)] | None => [] end) (get_sorted_nodes m ih).
Lemma ann_announce : forall m, announcements (announce_peer port ih m) = map (fun x => (fst x, ih, port, snd x)) (firstn 16 (with_token m ih)).
Proof.
  intro m. unfold announce_peer, announcements. rewrite flat_map_concat_map, map_map, <- flat_map_concat_map. change ANNOUNCE_TO_N_TOP_NODES with 16.
  unfold with_token. generalize (firstn 16 (flat_map (fun e : addr * fnode => match f_token (snd e) with Some t => [(fst e, t)] | None => [] end) (get_sorted_nodes m ih))).
  induction l as [|x l IH]; [reflexivity|]. cbn [map flat_map app fst snd]. rewrite IH. reflexivity.
Qed.
Lemma with_token_sorted : forall l, StronglySorted (fun a b => (fkey ih a <= fkey ih b)%N) l -> NoDup (keys l) -> Forall wf_entry l ->
  forall n a b na nb tb, In a (map fst (firstn n (flat_map (fun e => match f_token (snd e) with Some t => [(fst e, t)] | None => [] end) l))) ->
   ~ In b (map fst (firstn n (flat_map (fun e => match f_token (snd e) with Some t => [(fst e, t)] | None => [] end) l))) ->
   In (a, na) l -> In (b, nb) l -> f_token nb = Some tb -> (fkey ih (a, na) <= fkey ih (b, nb))%N.
Proof.
  induction 1 as [|x l S IH F]; intros ND FW n a b na nb tb A B IA IB T; [destruct IA|].
  cbn [keys map] in ND. apply NoDup_cons_iff in ND. destruct ND as (NX & ND). apply Forall_inv_tail in FW. rewrite Forall_forall in F.
  cbn [flat_map] in A, B. destruct x as [xa xn]. cbn [fst snd] in *.
  destruct IB as [IB|IB].
  - injection IB as -> ->. rewrite T in A, B. destruct n; [destruct A|]. cbn in B. exfalso. apply B. left. auto.
  - destruct IA as [IA|IA].
    + injection IA as -> ->. apply F. auto.
    + destruct (f_token xn) as [t|].
      * destruct n; [destruct A|]. cbn [app firstn map] in A, B. destruct A as [A|A].
        { cbn in A. subst xa. exfalso. apply NX. unfold keys. apply in_map_iff. exists (a, na). auto. }
        eapply IH; eauto. intro Q. apply B. right. exact Q.
      * eapply IH; eauto.
Qed.
Lemma with_token_keys : forall l : node_map, NoDup (keys l) -> NoDup (map fst (flat_map (fun e => match f_token (snd e) with Some t => [(fst e, t)] | None => [] end) l)) /\
  forall a t, In (a, t) (flat_map (fun e => match f_token (snd e) with Some t => [(fst e, t)] | None => [] end) l) <-> exists n, In (a, n) l /\ f_token n = Some t.
Proof.
  induction l as [|[xa xn] l IH]; intro ND; cbn [flat_map].
  - split; [constructor|]. cbn. intros. split; [contradiction|]. intros (n & [] & _).
  - cbn [keys map fst] in ND. apply NoDup_cons_iff in ND. destruct ND as (NX & ND). destruct (IH ND) as (A & B). cbn [fst snd]. split.
    + destruct (f_token xn) as [t|]; [|exact A]. cbn. constructor; auto. intro X. apply in_map_iff in X. destruct X as ([a t2] & Q & X). cbn in Q. subst.
      apply B in X. destruct X as (n & X & _). apply NX. unfold keys. apply in_map_iff. exists (xa, n). auto.
    + intros a t. rewrite in_app_iff, B. split.
      * intros [X|(n & X & Y)]; [|exists n; split; [right|]; auto]. destruct (f_token xn) as [t2|] eqn:E; [|destruct X]. destruct X as [X|[]].
        injection X as -> ->. exists xn. split; [left|]; auto.
      * intros (n & [X|X] & Y); [|right; exists n; auto]. left. injection X as -> ->. rewrite Y. left. auto.
Qed.
Lemma round_end : forall h s e s' o, finv h s -> wf_fev e -> fstep usize_max s e = Val (s', o) ->
  (announcements o = [] /\ (fs_busy s = true -> fs_busy s' = true)) \/
  (fs_busy s = true /\ fs_busy s' = false /\ announcements o = announcements (announce_peer port ih (fs_nodes s'))).
Proof.
  intros h s e s' o G WF ST. destruct e as [|r| |op].
  - left. cbn [fstep] in ST. destruct (fs_busy s) eqn:B; [discriminate|]. injection ST as <- <-. split; [|discriminate].
    apply ann_gets. intros c C. apply in_map_iff in C. destruct C as (a & <- & _). eauto.
  - destruct r as [from id|nodes from id|from token v].
    1,2: left; cbn [fstep] in ST; destruct (fs_busy s) eqn:B; [|discriminate]; injection ST as <- <-; auto.
    assert (B : fs_busy s = true). { cbn [fstep] in ST. destruct (fs_busy s); auto; discriminate. }
    destruct (mget addr_eqb from (fs_nodes s)) as [old|] eqn:E.
    2: { left. cbn [fstep] in ST. rewrite B, E in ST. injection ST as <- <-. auto. }
    destruct (@answer_step h s old from token v G B E) as (ps & b & PN & PK & PL & EQ). cbv zeta in EQ. rewrite EQ in ST.
    destruct (@grown_spec h s old from token v G E WF) as (_ & _ & _ & _ & QG & _ & _).
    assert (QA : announcements (queries s old from token v) = []). { apply ann_gets. intros c C. destruct (QG c C) as (a & ->). eauto. }
    destruct b.
    + left. injection ST as <- <-. rewrite app_nil_r. auto.
    + right. split; [exact B|]. injection ST as <- <-. split; [reflexivity|]. rewrite ann_app, QA. reflexivity.
  - right. cbn [fstep] in ST. destruct (fs_busy s) eqn:B; [|discriminate]. injection ST as <- <-. cbn [fs_busy fs_nodes]. rewrite (fi_info G), (fi_port G). auto.
  - left. destruct (@step_keys (fs_peers s) op (fi_pnodup G)) as (m' & out & E & _). cbn [fstep] in ST. rewrite E in ST. cbn [rmap fst] in ST.
    assert (Q : (mk_fet (fs_info s) (fs_port s) (fs_nodes s) m' (fs_busy s), []) = (s', o)) by (destruct (fs_busy s); injection ST; congruence).
    injection Q as <- <-. auto.
Qed.
(** Announcements are sent at the end of a round only: to at most 16 addresses,
    each with the token it supplied last; the most promising ones (up to a
    factor of two in distance), and all that supplied a token if these are
    fewer than 16. *)
Theorem C51_announce : forall h s e s' o, Runs h s -> wf_fev e -> fstep usize_max s e = Val (s', o) ->
  let addrs := map (fun x => fst (fst (fst x))) (announcements o) in
  length (announcements o) <= 16 /\ NoDup addrs /\
  (announcements o <> [] -> fs_busy s = true /\ fs_busy s' = false) /\
  (forall a i p t, In (a, i, p, t) (announcements o) -> i = ih /\ p = port /\ last_token a ((e, o) :: h) = Some t /\ In a (keys (fs_nodes s'))) /\
  (forall a na b nb tb, In a addrs -> ~ In b addrs -> In (a, na) (fs_nodes s') -> In (b, nb) (fs_nodes s') -> f_token nb = Some tb ->
     rank na <= rank nb /\ (rank na = rank nb -> (far ih na <= 2 * far ih nb)%N)) /\
  (fs_busy s = true -> fs_busy s' = false -> length (announcements o) < 16 ->
     forall b nb tb, In (b, nb) (fs_nodes s') -> f_token nb = Some tb -> In b addrs).
Proof.
  intros h s e s' o H WF ST addrs. pose proof (runs_finv H) as G. pose proof (@step_inv h s e s' o G WF ST) as G'. subst addrs.
  destruct (@round_end h s e s' o G WF ST) as [(AN & BB)|(B1 & B2 & AN)].
  - rewrite AN. cbn. repeat split; try contradiction; try lia; try constructor. intros X Y. rewrite (BB X) in Y. discriminate.
  - rewrite AN. rewrite ann_announce. set (L := with_token (fs_nodes s') ih).
    set (q := announcements o) in *. clearbody q.
    assert (MM : map (fun x : addr * ID * N * bytes => fst (fst (fst x))) (map (fun x => (fst x, ih, port, snd x)) (firstn 16 L)) = map fst (firstn 16 L)).
    { rewrite map_map. reflexivity. }
    rewrite MM. rewrite map_length. pose proof (sorted_perm (fs_nodes s') ih) as P.
    assert (NS : NoDup (keys (get_sorted_nodes (fs_nodes s') ih))) by (eapply Permutation_NoDup; [apply Permutation_map; symmetry; exact P|apply (fi_nodup G')]).
    destruct (@with_token_keys (get_sorted_nodes (fs_nodes s') ih) NS) as (K1 & K2). fold (with_token (fs_nodes s') ih) in K1, K2. fold L in K1, K2.
    assert (SL : incl (firstn 16 L) L). { intros x X. rewrite <- (firstn_skipn 16 L). apply in_or_app. auto. }
    split; [apply firstn_le_length|]. split.
    { rewrite <- (firstn_skipn 16 L), map_app in K1. eapply NoDup_app_l; eauto. }
    split; [auto|]. split; [|split].
    + intros a i p t I. apply in_map_iff in I. destruct I as ([x y] & Q & I). injection Q as -> <- <- ->. apply SL in I. apply K2 in I. destruct I as (n & I & T).
      eapply Permutation_in in I; [|exact P]. repeat split; auto; [eapply (fi_tok G'); eauto|]. unfold keys. apply in_map_iff. exists (a, n). auto.
    + intros a na b nb tb A NB IA IB T. pose proof (fi_wf G') as FW.
      assert (C : (fkey ih (a, na) <= fkey ih (b, nb))%N).
      { eapply (@with_token_sorted (get_sorted_nodes (fs_nodes s') ih)) with (n := 16); eauto.
        - apply sorted_keys; auto.
        - apply sorted_wf; auto.
        - eapply Permutation_in; [symmetry; exact P|exact IA].
        - eapply Permutation_in; [symmetry; exact P|exact IB]. }
      rewrite Forall_forall in FW. apply (key_le W (FW _ IA) (FW _ IB)) in C. exact C.
    + intros _ _ LT b nb tb IB T. assert (LL : length L < 16). { rewrite firstn_length in LT. lia. }
      rewrite firstn_all2 by lia. apply in_map_iff. exists (b, tb). split; auto. apply K2. exists nb. split; auto. eapply Permutation_in; [symmetry; exact P|exact IB].
Qed.
(** Who is asked: at the start of a round every remembered address once; later
    only addresses that are not remembered, once each, for our info hash. *)
Theorem C51_queries : forall h s e s' o, Runs h s -> wf_fev e -> fstep usize_max s e = Val (s', o) ->
  NoDup (asked o) /\ (forall a i, In (CQuery a (QGetPeers i)) o -> i = ih) /\
  (e = FTick -> Permutation (asked o) (keys (fs_nodes s)) /\ fs_nodes s' = fs_nodes s) /\
  (e <> FTick -> forall a, In a (asked o) -> ~ In a (keys (fs_nodes s))) /\
  (forall from token n x, e = FResp (FGetPeers from token (VNodes n)) -> In from (keys (fs_nodes s)) -> In x (nodes_list n) ->
     In (n_addr x) (keys (fs_nodes s)) \/ In (n_addr x) (asked o)).
Proof.
  intros h s e s' o H WF ST. pose proof (runs_finv H) as G.
  assert (EMPTY : asked o = [] -> (forall a i, ~ In (CQuery a (QGetPeers i)) o) -> e <> FTick -> (forall from token n, e = FResp (FGetPeers from token (VNodes n)) -> ~ In from (keys (fs_nodes s))) ->
     NoDup (asked o) /\ (forall a i, In (CQuery a (QGetPeers i)) o -> i = ih) /\
     (e = FTick -> Permutation (asked o) (keys (fs_nodes s)) /\ fs_nodes s' = fs_nodes s) /\
     (e <> FTick -> forall a, In a (asked o) -> ~ In a (keys (fs_nodes s))) /\
     (forall from token n x, e = FResp (FGetPeers from token (VNodes n)) -> In from (keys (fs_nodes s)) -> In x (nodes_list n) ->
       In (n_addr x) (keys (fs_nodes s)) \/ In (n_addr x) (asked o))).
  { intros -> NQ NT NF. split; [constructor|]. split; [|split; [congruence|split]].
    - intros a i I. exfalso. eapply NQ; eauto.
    - intros _ a [].
    - intros from token n x E I. exfalso. eapply NF; eauto. }
  assert (NOG : forall m a i, ~ In (CQuery a (QGetPeers i)) (announce_peer port ih m)).
  { intros m a i I. unfold announce_peer in I. apply in_map_iff in I. destruct I as (x & Q & _). discriminate. }
  destruct e as [|r| |op].
  - clear EMPTY. cbn [fstep] in ST. destruct (fs_busy s) eqn:B; [discriminate|]. injection ST as <- <-. rewrite asked_map.
    split; [apply (fi_nodup G)|]. split. { intros a i I. apply in_map_iff in I. destruct I as (x & Q & _). injection Q as _ <-. apply (fi_info G). }
    split; [split; [apply Permutation_refl|reflexivity]|]. split; [congruence|discriminate].
  - destruct r as [from id|nodes from id|from token v].
    1,2: cbn [fstep] in ST; destruct (fs_busy s) eqn:B; [|discriminate]; injection ST as <- <-; apply EMPTY; auto; discriminate.
    assert (B : fs_busy s = true). { cbn [fstep] in ST. destruct (fs_busy s); auto; discriminate. }
    destruct (mget addr_eqb from (fs_nodes s)) as [old|] eqn:E.
    2: { cbn [fstep] in ST. rewrite B, E in ST. injection ST as <- <-. apply EMPTY; auto; try discriminate. intros f t n Q. injection Q as <- _ _.
         apply (mget_none _ addr_eqb_spec) in E. exact E. }
    clear EMPTY. destruct (@answer_step h s old from token v G B E) as (ps & b & PN & PK & PL & EQ). cbv zeta in EQ. rewrite EQ in ST.
    destruct (@grown_spec h s old from token v G E WF) as (ND & _ & PM & _ & QG & _ & NN).
    set (m' := if 512 <=? length (grown s old from token v) then forget_far_nodes (grown s old from token v) ih else grown s old from token v) in *.
    assert (S2 : o = queries s old from token v ++ (if b then [] else announce_peer port ih m')) by congruence.
    assert (AQ : asked o = asked (queries s old from token v)).
    { rewrite S2, asked_app. destruct b; [|rewrite asked_announce]; apply app_nil_r. }
    assert (NA : NoDup (keys (fs_nodes s) ++ asked (queries s old from token v))) by (eapply Permutation_NoDup; eauto).
    rewrite AQ. split. { clear - NA. induction (keys (fs_nodes s)); auto. cbn in NA. apply NoDup_cons_iff in NA. tauto. }
    split. { intros a i I. rewrite S2 in I. apply in_app_or in I. destruct I as [I|I].
      - destruct (QG _ I) as (x & Q). injection Q as _ ->. apply (fi_info G).
      - destruct b; [destruct I|]. exfalso. eapply NOG; eauto. }
    split; [discriminate|]. split.
    + intros _ a A X. clear - NA A X. induction (keys (fs_nodes s)) as [|k l IH]; [destruct X|]. cbn in NA. apply NoDup_cons_iff in NA. destruct NA as (N1 & N2).
      destruct X as [->|X]; [|auto]. apply N1. apply in_or_app. auto.
    + intros f t n x Q _ X. injection Q as <- <- ->. pose proof (NN n x eq_refl X) as Y. eapply Permutation_in in Y; [|exact PM]. apply in_app_or in Y. exact Y.
  - cbn [fstep] in ST. destruct (fs_busy s) eqn:B; [|discriminate]. injection ST as <- <-. rewrite (fi_info G), (fi_port G) in *.
    apply EMPTY; try discriminate; [apply asked_announce|intros; apply NOG].
  - destruct (@step_keys (fs_peers s) op (fi_pnodup G)) as (m' & out & E & _). cbn [fstep] in ST. rewrite E in ST. cbn [rmap fst] in ST.
    assert (Q : (mk_fet (fs_info s) (fs_port s) (fs_nodes s) m' (fs_busy s), []) = (s', o)) by (destruct (fs_busy s); injection ST; congruence).
    injection Q as <- <-. apply EMPTY; auto; discriminate.
Qed.
(** Within a round that asks fewer than 512 addresses nobody is asked twice,
    and everybody asked stays remembered. *)
Theorem C51_once_per_round : forall h s, Runs h s -> fs_busy s = true -> length (asked_this_round h) < 512 ->
  NoDup (asked_this_round h) /\ Permutation (asked_this_round h) (keys (fs_nodes s)).
Proof.
  intros h s H B L. pose proof (runs_finv H) as G. destruct (fi_busy G B) as (_ & [X|X]); [lia|]. split; [|exact X].
  eapply Permutation_NoDup; [symmetry; exact X|apply (fi_nodup G)].
Qed.
(** The set stays below 512 and no enabled event stops the task. *)
Theorem C51_bounded : forall h s, Runs h s -> length (fs_nodes s) < 512 /\ NoDup (keys (fs_nodes s)) /\
  forall e, enabled s e -> exists s' o, fstep usize_max s e = Val (s', o).
Proof.
  intros h s H. pose proof (runs_finv H) as G. split; [apply (fi_len G)|]. split; [apply (fi_nodup G)|]. intros e EN.
  destruct e as [|r| |op]; cbn [enabled] in EN; cbn [fstep]; try rewrite EN; eauto.
  - destruct r as [from id|nodes from id|from token v]; eauto. destruct (mget addr_eqb from (fs_nodes s)) as [old|] eqn:E; eauto.
    destruct (@answer_step h s old from token v G EN E) as (ps & b & _ & _ & _ & EQ). cbv zeta in EQ. cbn [fstep] in EQ. rewrite EN, E in EQ. eauto.
  - unfold end_round. eauto.
  - destruct (@step_keys (fs_peers s) op (fi_pnodup G)) as (m' & out & E & _). rewrite E. cbn [rmap]. destruct (fs_busy s); eauto.
Qed.
(** ** C81: what is learnt *)
(** Every peer named by a node that is remembered becomes known; it is the
    answers of asked nodes only, and other tasks, that add peers. *)
Theorem C81_learnt : forall h s from token l s' o, Runs h s -> fstep usize_max s (FResp (FGetPeers from token (VValues l))) = Val (s', o) ->
  (In from (keys (fs_nodes s)) -> forall p, In p (map fst (fs_peers s')) <-> In p l \/ In p (map fst (fs_peers s))) /\
  (~ In from (keys (fs_nodes s)) -> fs_peers s' = fs_peers s) /\
  (length (asked_this_round h) < 512 -> (In from (keys (fs_nodes s)) <-> In from (asked_this_round h))).
Proof.
  intros h s from token l s' o H ST. pose proof (runs_finv H) as G.
  assert (B : fs_busy s = true). { cbn [fstep] in ST. destruct (fs_busy s); auto; discriminate. }
  split; [|split].
  - intros K p. destruct (key_mget _ addr_eqb_spec _ _ K) as (old & E).
    destruct (@answer_step h s old from token (VValues l) G B E) as (ps & b & PN & PK & PL & EQ). cbv zeta in EQ. rewrite EQ in ST. injection ST as <- <-. cbn [fs_peers].
    rewrite PK. destruct (@peers_after_spec s (VValues l) (fi_pnodup G)) as (_ & PB). rewrite PB. split; intros [X|X]; auto.
    + destruct X as (l2 & Q & X). injection Q as ->. auto.
    + left. eauto.
  - intro K. rewrite (@C51_ignored h s from token (VValues l) H B K) in ST. injection ST as <- _. reflexivity.
  - intro L. destruct (C51_once_per_round H B L) as (_ & P). split; intro X; [eapply Permutation_in; [symmetry; exact P|exact X]|eapply Permutation_in; [exact P|exact X]].
Qed.
Theorem C81_only_asked : forall h s p, Runs h s -> In p (map fst (fs_peers s)) ->
  In p (map fst m0) \/ In p (learnt h) \/ In p (f_shared h).
Proof. intros h s p H. apply (fi_peers (runs_finv H)). Qed.
End hist.

(** ** witness: a closer node is forgotten, a farther one of the same kind kept *)
Section witness.
Fixpoint frun (umax : nat) (s : fetcher) (h : fhist) (es : list fev) : res (fetcher * fhist) :=
  match es with
  | [] => Val (s, h)
  | e :: es => match fstep umax s e with Val (s', o) => frun umax s' ((e, o) :: h) es | Fail => Fail | Panic => Panic end
  end.
Lemma frun_runs : forall umax ih port start m0 es s h s' h', fruns umax ih port start m0 h s -> Forall wf_fev es ->
  frun umax s h es = Val (s', h') -> fruns umax ih port start m0 h' s'.
Proof.
  induction es as [|e es IH]; intros s h s' h' H F E; cbn [frun] in E.
  - injection E as <- <-. exact H.
  - destruct (fstep umax s e) as [[s1 o]| |] eqn:Q; try discriminate. eapply IH; [|eapply Forall_inv_tail; exact F|exact E].
    eapply fr_step; eauto. apply (Forall_inv F).
Qed.
(** Node [i] at its own address, closer to the hash 0 the larger [i] is; all
    distances have 160 bits. *)
Definition w_addr (i : nat) : addr := mk_addr x0a x00 (n2b (N.of_nat i / 256)) (n2b (N.of_nat i)) 6881.
Definition w_node (i : nat) : node := mk_node (x80 :: repeat x00 17 ++ be_bytes 2 (N.of_nat (1000 - i))) (w_addr i) None.
Definition w_ih : ID := repeat x00 20.
Definition w_answer (i : nat) : von := VNodes (Closest (map w_node (seq (13 + 40 * i) 40))).
Definition w_events : list fev := FTick :: map (fun i => FResp (FGetPeers (w_addr i) [] (w_answer i))) (seq 0 12).
Definition w_start : fetcher := f_start w_ih 6881 (map w_node (seq 0 13)) [].
Definition w_kept : nat := 127.
Definition w_dropped : nat := 532.
(** Everything the witness needs of the computation. *)
Definition w_test (s s' : fetcher) (o : list to_con) : bool :=
  match mget addr_eqb (w_addr w_kept) (fs_nodes s') with Some (FUnknown i) => bytes_eqb i (n_id (w_node w_kept)) | _ => false end &&
  negb (mhas addr_eqb (w_addr w_dropped) (fs_nodes s')) &&
  existsb (addr_eqb (w_addr w_dropped)) (asked o) && mhas addr_eqb (w_addr 12) (fs_nodes s) && negb (mhas addr_eqb (w_addr w_dropped) (fs_nodes s)) &&
  forallb (fun x => negb (addr_eqb (n_addr x) (w_addr w_dropped)) || bytes_eqb (n_id x) (n_id (w_node w_dropped))) (map w_node (seq 493 40)).
Definition w_final (e : fev) (r : res (fetcher * fhist)) : bool :=
  match r with
  | Val (s, h) => match fstep 1000 s e with Val (s', o) => w_test s s' o | _ => false end
  | _ => false
  end.
Lemma w_final_inv : forall e r, w_final e r = true -> exists s h s' o, r = Val (s, h) /\ fstep 1000 s e = Val (s', o) /\ w_test s s' o = true.
Proof.
  intros e r OK. unfold w_final in OK. destruct r as [[s h]| |]; try discriminate. destruct (fstep 1000 s e) as [[s' o]| |] eqn:Q; try discriminate.
  exists s, h, s', o. auto.
Qed.
Lemma w_ok : w_final (FResp (FGetPeers (w_addr 12) [] (w_answer 12))) (frun 1000 w_start [] w_events) = true.
Proof. vm_cast_no_check (eq_refl true). Qed.
Lemma w_node_wf : forall i, wf_id (n_id (w_node i)).
Proof. intro i. unfold w_node, wf_id. cbn [n_id length]. rewrite app_length, repeat_length, be_bytes_length. reflexivity. Qed.
Lemma w_nodes_wf : forall l, Forall (fun n => wf_id (n_id n)) (map w_node l).
Proof. intro l. apply Forall_forall. intros x X. apply in_map_iff in X. destruct X as (i & <- & _). apply w_node_wf. Qed.
Theorem C51_trim_refuted : exists umax ih port start h s from token v s' o, wf_id ih /\ Forall (fun n => wf_id (n_id n)) start /\ length start < 512 /\
  fruns umax ih port start [] h s /\ wf_fev (FResp (FGetPeers from token v)) /\
  fstep umax s (FResp (FGetPeers from token v)) = Val (s', o) /\ ~ C51_trim_always ih s from token v s' o /\
  exists x ix y iy, In (x, FUnknown ix) (fs_nodes s') /\ In y (asked o) /\ ~ In y (keys (fs_nodes s')) /\
    (exists n, v = VNodes n /\ exists z, In z (nodes_list n) /\ n_addr z = y /\ n_id z = iy) /\ (dist ih iy < dist ih ix)%N.
Proof.
  destruct (w_final_inv _ _ w_ok) as (s & h & s' & o & R & ST & OK). unfold w_test in OK.
  assert (H : fruns 1000 w_ih 6881 (map w_node (seq 0 13)) [] h s).
  { eapply frun_runs; [apply fr_nil| |exact R]. constructor; [exact I|]. apply Forall_forall. intros e X. apply in_map_iff in X. destruct X as (i & <- & _). apply w_nodes_wf. }
  clear R.
  apply andb_true_iff in OK. destruct OK as (OK & O6). apply andb_true_iff in OK. destruct OK as (OK & O5). apply andb_true_iff in OK. destruct OK as (OK & O4).
  apply andb_true_iff in OK. destruct OK as (OK & O3). apply andb_true_iff in OK. destruct OK as (O1 & O2).
  assert (K : In (w_addr w_kept, FUnknown (n_id (w_node w_kept))) (fs_nodes s')).
  { destruct (mget addr_eqb (w_addr w_kept) (fs_nodes s')) as [[i| |]|] eqn:E; try discriminate O1. apply bytes_eqb_eq in O1. subst i. eapply mget_in; [|exact E]. apply addr_eqb_spec. }
  assert (ND : ~ In (w_addr w_dropped) (keys (fs_nodes s'))). { intro X. apply (mhas_in _ addr_eqb_spec) in X. rewrite X in O2. discriminate O2. }
  assert (NB : ~ In (w_addr w_dropped) (keys (fs_nodes s))). { intro X. apply (mhas_in _ addr_eqb_spec) in X. rewrite X in O5. discriminate O5. }
  assert (AS : In (w_addr w_dropped) (asked o)). { apply existsb_exists in O3. destruct O3 as (x & X & Y). apply addr_eqb_spec in Y. subst x. exact X. }
  apply (mhas_in _ addr_eqb_spec) in O4.
  assert (WI : wf_id w_ih) by reflexivity.
  assert (LS : length (map w_node (seq 0 13)) < 512) by (rewrite map_length, seq_length; lia).
  assert (WF : wf_fev (FResp (FGetPeers (w_addr 12) [] (w_answer 12)))) by apply w_nodes_wf.
  assert (D : (dist w_ih (n_id (w_node w_dropped)) < dist w_ih (n_id (w_node w_kept)))%N) by (vm_compute; reflexivity).
  exists 1000, w_ih, 6881%N, (map w_node (seq 0 13)), h, s, (w_addr 12), [], (w_answer 12), s', o.
  split; [exact WI|]. split; [apply w_nodes_wf|]. split; [exact LS|]. split; [exact H|]. split; [exact WF|]. split; [exact ST|]. split.
  - intro A. destruct (@C51_trim_partial 1000 w_ih 6881 _ [] WI (w_nodes_wf _) LS (NoDup_nil _) h s (w_addr 12) [] (w_answer 12) s' o H O4 WF ST) as (m & C & _).
    destruct C as (C1 & C2 & C3). assert (IK : In (w_addr w_dropped) (keys m)). { eapply Permutation_in; [symmetry; exact C2|]. apply in_or_app. auto. }
    unfold keys in IK. apply in_map_iff in IK. destruct IK as ([a n] & Q & IK). cbn [fst] in Q. subst a.
    assert (N : n = FUnknown (n_id (w_node w_dropped))).
    { destruct (C3 _ _ IK) as [(Q & _)|[(_ & Q)|(l & x & Q1 & Q2 & Q3 & ->)]].
      - exfalso. apply NB. rewrite Q. exact O4.
      - exfalso. apply NB. unfold keys. apply in_map_iff. exists (w_addr w_dropped, n). auto.
      - unfold w_answer in Q1. injection Q1 as <-. cbn [nodes_list] in Q2. rewrite forallb_forall in O6. specialize (O6 x).
        change (13 + 40 * 12) with 493 in Q2. specialize (O6 Q2). rewrite <- Q3 in O6. rewrite (eqb_rfl _ addr_eqb_spec) in O6. apply bytes_eqb_eq in O6. rewrite O6. reflexivity. }
    subst n. apply (A m (w_addr w_kept, FUnknown (n_id (w_node w_kept))) (w_addr w_dropped, FUnknown (n_id (w_node w_dropped)))); auto.
    + split; auto.
    + intro X. apply ND. unfold keys. apply in_map_iff. exists (w_addr w_dropped, FUnknown (n_id (w_node w_dropped))). auto.
    + right. split; [reflexivity|exact D].
  - exists (w_addr w_kept), (n_id (w_node w_kept)), (w_addr w_dropped), (n_id (w_node w_dropped)). repeat split; auto.
    exists (Closest (map w_node (seq (13 + 40 * 12) 40))). split; [reflexivity|]. exists (w_node w_dropped). cbn [nodes_list]. repeat split; auto.
    apply in_map. apply in_seq. unfold w_dropped. lia.
Qed.
(** A small round: one start node answers with two peers, is announced to. *)
Example C51_example : exists h s, fruns 1000 w_ih 6881 [w_node 0] [] h s /\ fs_busy s = false /\
  map fst (fs_peers s) = [w_addr 5; w_addr 6] /\ asked_this_round h = [w_addr 1; w_addr 0] /\
  exists o h', h = (FQuiet, o) :: h' /\ announcements o = [(w_addr 1, w_ih, 6881%N, [x02]); (w_addr 0, w_ih, 6881%N, [x01])].
Proof.
  destruct (frun 1000 (f_start w_ih 6881 [w_node 0] []) []
    [FTick; FResp (FGetPeers (w_addr 0) [x01] (VNodes (Exact (w_node 1)))); FResp (FGetPeers (w_addr 1) [x02] (VValues [w_addr 5; w_addr 6])); FQuiet]) as [[s h]| |] eqn:R.
  2,3: vm_compute in R; discriminate.
  exists h, s. split.
  - eapply frun_runs; [apply fr_nil| |exact R]. repeat constructor.
  - vm_compute in R. injection R as <- <-. split; [reflexivity|]. split; [reflexivity|]. split; [reflexivity|]. do 2 eexists. split; reflexivity.
Qed.
End witness.
Print Assumptions C51_trim_partial.
Print Assumptions C51_trim_refuted.
Print Assumptions C51_ignored.
Print Assumptions C51_announce.
Print Assumptions C51_queries.
Print Assumptions C51_once_per_round.
Print Assumptions C51_bounded.
Print Assumptions C81_learnt.
Print Assumptions C81_only_asked.
