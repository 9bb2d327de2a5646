(** C65 in full: exactly who is told to start a piece in one round of the torrent
    manager, in which order, and exactly when nobody is told twice. *)
From Coq Require Import List NArith ZArith Lia Bool Arith Permutation.
From Coq Require Import Init.Byte.
From Verif Require Import Base Assoc BitSpec BitmapModel BitmapProofs IdModel WireModel PeersModel PeersSpec PeersProofs PeersProps ManagerModel ManagerSpec ManagerProofs ManagerProofs2 ManagerProps ManagerHistoryProps SpreadProps.
Import ListNotations.
Set Implicit Arguments.

(** ** Vocabulary *)
(** An active peer that offers the piece: how many pieces it works on, and whether
    this piece is among them. *)
Record cand := mk_cand { c_peer : addr; c_load : nat; c_works : bool }.
(** Those that offer piece [i], in the order of the map of active peers. *)
Definition cand_of (i : nat) (x : addr * pinfo) : list cand :=
  if negb (pi_choking (snd x)) && piece_inb (pi_haves (snd x)) i
  then [mk_cand (fst x) (count_true (bits (pi_working (snd x)))) (piece_inb (pi_working (snd x)) i)] else [].
Definition candidates (m : mgr) (i : nat) : list cand := flat_map (cand_of i) (m_active m).
(** The least load among them; 4 stands for nobody. *)
Definition least (cs : list cand) : nat := fold_right (fun c l => Nat.min (c_load c) l) 4 cs.
(** Those with load [l] that come before the first one of them that works on the
    piece already, and that one. *)
Fixpoint ahead (l : nat) (cs : list cand) : list addr * option addr :=
  match cs with
  | [] => ([], None)
  | c :: t => if c_load c =? l then if c_works c then ([], Some (c_peer c)) else (c_peer c :: fst (ahead l t), snd (ahead l t)) else ahead l t
  end.
(** After everybody with load [l] got the piece. *)
Definition given (l : nat) (cs : list cand) : list cand :=
  map (fun c => if c_load c =? l then mk_cand (c_peer c) (S l) true else c) cs.
(** Who gets one command each, and who gets all the commands left over. *)
Definition shares (cs : list cand) : list addr * option addr :=
  let l := least cs in
  if 4 <=? l then ([], None) else
  match ahead l cs with
  | (a, Some w) => (a, Some w)
  | (a, None) => if l =? 3 then (a, None) else (a ++ fst (ahead (S l) (given l cs)), snd (ahead (S l) (given l cs)))
  end.
Definition left_over (w : option addr) (k : nat) : list addr := match w with Some p => repeat p k | None => [] end.
(** How many of the commands tried in a round get through: there are as many tries
    as free places. *)
Definition getting_through (m : mgr) (sent : nat -> bool) : nat :=
  length (filter sent (seq 0 (9 - count_true (bits (m_pieces m))))).
(** How many commands can be given without telling anybody twice. *)
Definition room (x : list addr * option addr) : option nat :=
  match snd x with
  | None => None
  | Some w => Some (if existsb (addr_eqb w) (fst x) then length (fst x) else S (length (fst x)))
  end.

(** ** Proofs *)
(** A round as a small game on the candidates alone. *)
Fixpoint first_at (l : nat) (cs : list cand) : option addr :=
  match cs with [] => None | c :: t => if c_load c =? l then Some (c_peer c) else first_at l t end.
Definition pick (cs : list cand) : option addr :=
  match first_at 0 cs with Some p => Some p | None =>
  match first_at 1 cs with Some p => Some p | None =>
  match first_at 2 cs with Some p => Some p | None => first_at 3 cs end end end.
Definition raise1 (p : addr) (c : cand) : cand :=
  if addr_eqb (c_peer c) p && negb (c_works c) then mk_cand (c_peer c) (S (c_load c)) true else c.
Definition raise (p : addr) (cs : list cand) : list cand := map (raise1 p) cs.
Fixpoint greedy (k : nat) (cs : list cand) : list addr :=
  match k with
  | O => []
  | S k' => match pick cs with None => [] | Some p => p :: greedy k' (raise p cs) end
  end.

Lemma find_first : forall i l ps, (forall p inf, In (p, inf) ps -> i < length (bits (pi_haves inf))) ->
  find_peer ps i l = Val (first_at l (flat_map (cand_of i) ps)).
Proof.
  induction ps as [|[p inf] t IH]; intro H; [reflexivity|]. cbn [find_peer flat_map]. unfold cand_of at 1. cbn [fst snd].
  destruct (pi_choking inf); cbn [negb andb app]; [apply IH; intros; eapply H; right; eauto|].
  rewrite bm_get_spec. unfold piece_inb. specialize (H p inf (or_introl eq_refl)) as L.
  destruct (nth_error (bits (pi_haves inf)) i) as [v|] eqn:E; [|apply nth_error_None in E; lia]. cbn [rbind].
  destruct v; cbn [andb app]; [|apply IH; intros; eapply H; right; eauto]. cbn [first_at c_load c_peer].
  pose proof (bm_weight_spec (pi_working inf)) as B. destruct (Nat.eqb_spec (count_true (bits (pi_working inf))) l) as [X|X].
  - replace (bm_weight (pi_working inf)) with (N.of_nat l) by lia. rewrite N.eqb_refl. reflexivity.
  - destruct (N.eqb_spec (bm_weight (pi_working inf)) (N.of_nat l)); [lia|]. apply IH. intros; eapply H; right; eauto.
Qed.
Lemma select_pick : forall n m i, inv n m -> first_wanted m i -> exists h,
  select_piece m = Val (match pick (candidates m i) with Some p => Some (p, i, h) | None => None end).
Proof.
  intros n m i I [FW1 FW2]. unfold select_piece, sequential_select. destruct (remaining_inv I) as (rem & E & W & H). rewrite E. cbn [rbind].
  assert (RN : forall i, In i rem -> i < n). { intros j Hj. apply W in Hj as (_ & L & _). rewrite (bo_len (i_local I)) in L. auto. }
  rewrite (@sel_loop_zero n m rem (i_assigned I) RN). destruct rem as [|j t]; [destruct (H i FW1)|]. cbn [select_first rbind].
  destruct H as [W1 W2]. assert (j = i). { destruct (Nat.lt_trichotomy i j) as [X|[X|X]]; auto; exfalso; [eapply W2|eapply FW2]; eauto. } subst j.
  assert (Hn : i < n) by (apply RN; left; auto).
  destruct (nth_error (m_hashes m) i) as [h|] eqn:EH. 2:{ apply nth_error_None in EH. pose proof (i_hashes I). lia. }
  assert (LP : forall p inf, In (p, inf) (m_active m) -> i < length (bits (pi_haves inf))).
  { intros p inf HI. destruct (i_info I _ _ HI) as [O1 _]. pose proof (bm_ok_room O1). lia. }
  exists h. rewrite !(find_first _ _ LP). fold (candidates m i). unfold pick. cbn [rbind].
  destruct (first_at 0 (candidates m i)) as [p|]; [cbn [rbind]; rewrite EH; reflexivity|].
  destruct (first_at 1 (candidates m i)) as [p|]; [cbn [rbind]; rewrite EH; reflexivity|].
  destruct (first_at 2 (candidates m i)) as [p|]; [cbn [rbind]; rewrite EH; reflexivity|].
  destruct (first_at 3 (candidates m i)) as [p|]; [cbn [rbind]; rewrite EH; reflexivity|reflexivity].
Qed.
Lemma raise_absent : forall p ps i, ~ In p (map fst ps) -> raise p (flat_map (cand_of i) ps) = flat_map (cand_of i) ps.
Proof.
  intros p ps i. induction ps as [|[q inf] t IH]; intro H; [reflexivity|]. cbn [flat_map map fst In] in *. unfold raise in *. rewrite map_app. f_equal; [|tauto].
  unfold cand_of. cbn [fst snd]. destruct (_ && _); [|reflexivity]. cbn [map]. unfold raise1. cbn [c_peer].
  destruct (addr_eqb q p) eqn:Q; [|reflexivity]. apply addr_eqb_spec in Q. tauto.
Qed.
Lemma mark_raise : forall n m p i m', inv n m -> In p (map fst (m_active m)) -> mark_ongoing m p i = Val m' ->
  candidates m' i = raise p (candidates m i).
Proof.
  intros n m p i m' I K H. pose proof (i_nodup I) as N. unfold mark_ongoing in H. destruct (aget p (m_active m)) as [o|] eqn:G; [|apply aget_none in G; tauto]. cbn [rbind] in H.
  destruct (bm_change (m_pieces m) i true) as [[b old]| |] eqn:E; try discriminate. cbn [rbind] in H.
  destruct (bm_change (pi_working o) i true) as [[w oldw]| |] eqn:Ew; try discriminate. cbn [rbind fst] in H. injection H as <-.
  unfold candidates. cbn [with_pieces with_active m_active]. clear E I K. apply bm_change_val in Ew as (L & O & B & _).
  revert N G. induction (m_active m) as [|[q x] t IH]; intros N G; cbn [aget mget] in G; [discriminate|].
  cbn [map fst] in N. inversion N as [|? ? N1 N2]; subst. unfold aget, aset in *. cbn [mget mset] in *. destruct (addr_eqb p q) eqn:Q.
  - apply addr_eqb_spec in Q. subst q. injection G as ->. cbn [flat_map]. unfold raise. rewrite map_app. fold (raise p (flat_map (cand_of i) t)). rewrite raise_absent by auto. f_equal.
    unfold cand_of. cbn [fst snd pi_choking pi_haves pi_working]. destruct (_ && _); [|reflexivity]. cbn [map]. f_equal. unfold raise1. cbn [c_peer c_works c_load]. rewrite addr_rfl. cbn [andb].
    rewrite B, count_upd_exact by auto. rewrite (inb_nth (pi_working o) i).
    assert (T : piece_inb w i = true). { unfold piece_inb. rewrite B, nth_error_upd_same by auto. reflexivity. }
    rewrite T. destruct (nth i (bits (pi_working o)) false); reflexivity.
  - cbn [flat_map]. unfold raise. rewrite map_app. fold (raise p (flat_map (cand_of i) t)). rewrite <- IH by auto. f_equal.
    unfold cand_of. cbn [fst snd]. destruct (_ && _); [|reflexivity]. cbn [map]. f_equal. unfold raise1. cbn [c_peer].
    destruct (addr_eqb q p) eqn:Q2; [|reflexivity]. apply addr_eqb_spec in Q2. subst q. rewrite addr_rfl in Q. discriminate.
Qed.
Lemma first_at_in : forall l cs p, first_at l cs = Some p -> exists c, In c cs /\ c_peer c = p /\ c_load c = l.
Proof.
  induction cs as [|c t IH]; intros p H; [discriminate|]. cbn [first_at] in H. destruct (Nat.eqb_spec (c_load c) l).
  - injection H as <-. exists c. cbn. auto.
  - destruct (IH p H) as (x & A & B). exists x. cbn. auto.
Qed.
Lemma pick_in : forall cs p, pick cs = Some p -> exists c, In c cs /\ c_peer c = p.
Proof.
  intros cs p H. unfold pick in H.
  destruct (first_at 0 cs) eqn:E0; [|destruct (first_at 1 cs) eqn:E1; [|destruct (first_at 2 cs) eqn:E2]];
  match goal with E : first_at _ cs = Some ?x |- _ => try (injection H as ->); apply first_at_in in E as (c & A & B & _); eauto end.
Qed.
Lemma cand_active : forall m i c, In c (candidates m i) -> In (c_peer c) (map fst (m_active m)).
Proof.
  intros m i c H. apply in_flat_map in H as ([q inf] & A & B). unfold cand_of in B. cbn [fst snd] in B. destruct (_ && _); [|destruct B].
  destruct B as [<-|[]]. cbn [c_peer]. apply (in_map fst) in A. exact A.
Qed.
Lemma loop_greedy : forall k n m sent m' out i, inv n m -> N.to_nat (bm_weight (m_pieces m)) + k <= 9 -> (forall q, In q (map fst (m_active m)) -> In q (m_conn m)) ->
  first_wanted m i -> assign_loop m sent k = Val (m', out) -> told_peers out = greedy (length (filter sent (seq 0 k))) (candidates m i).
Proof.
  induction k as [|k IH]; intros n m sent m' out i I L KN FW H; cbn [assign_loop] in H; [injection H as <- <-; reflexivity|].
  rewrite seq_S, filter_app, app_length. cbn [filter plus]. destruct (select_pick I FW) as (h & E). rewrite E in H. cbn [rbind] in H.
  destruct (pick (candidates m i)) as [p|] eqn:P.
  2:{ injection H as <- <-. destruct (length (filter sent (seq 0 k)) + _); cbn [greedy]; [|rewrite P]; reflexivity. }
  assert (KQ : In p (map fst (m_active m))) by (apply pick_in in P as (c & A & <-); eapply cand_active; eauto).
  unfold start_piece in H. rewrite (proj2 (existsb_addr p (m_conn m)) (KN _ KQ)) in H. cbn [andb] in H. destruct (sent k).
  - destruct (@mark_spec n m p i I KQ) as (m1 & E1 & I1 & _ & K1 & _ & C1 & L1 & F1 & W1 & _).
    { destruct FW as [(_ & B & _) _]. rewrite (bo_len (i_local I)) in B. auto. } { lia. }
    rewrite E1 in H. cbn [rmap rbind fst snd] in H. destruct (assign_loop m1 sent k) as [[m2 o2]| |] eqn:A; try discriminate. cbn in H. injection H as <- <-.
    cbn [length]. rewrite Nat.add_1_r. cbn [greedy]. rewrite P. cbn [told_peers flat_map app]. fold (told_peers o2). f_equal.
    rewrite <- (mark_raise p i I KQ E1). apply (IH n m1 sent m2 o2 i I1); auto; [lia|rewrite K1, C1; auto|]. unfold first_wanted, wanted in *. rewrite L1, F1. auto.
  - cbn [rbind fst snd] in H. destruct (assign_loop m sent k) as [[m2 o2]| |] eqn:A; try discriminate. cbn in H. injection H as <- <-.
    cbn [length app]. rewrite Nat.add_0_r. apply (IH n m sent m2 o2 i I); auto. lia.
Qed.

(** The game. *)
Definition peers_of (cs : list cand) : list addr := map c_peer cs.
Lemma first_at_app : forall l a b, first_at l (a ++ b) = match first_at l a with Some p => Some p | None => first_at l b end.
Proof. induction a as [|c a IH]; intro b; [reflexivity|]. cbn [app first_at]. destruct (_ =? _); auto. Qed.
Lemma first_at_none : forall l cs, (forall c, In c cs -> c_load c <> l) -> first_at l cs = None.
Proof.
  induction cs as [|c t IH]; intro H; [reflexivity|]. cbn [first_at]. destruct (Nat.eqb_spec (c_load c) l) as [E|E]; [|apply IH; intros; apply H; right; auto].
  destruct (H c); [left|]; auto.
Qed.
Lemma pick_at : forall l cs p, l < 4 -> (forall c, In c cs -> l <= c_load c) -> first_at l cs = Some p -> pick cs = Some p.
Proof.
  intros l cs p L A F. unfold pick. assert (Z : forall j, j < l -> first_at j cs = None). { intros j J. apply first_at_none. intros c Hc. specialize (A c Hc). lia. }
  destruct l as [|[|[|[|l]]]]; [rewrite F; auto| | | |lia].
  - rewrite Z, F by lia. reflexivity.
  - rewrite !Z, F by lia. reflexivity.
  - rewrite !Z by lia. exact F.
Qed.
Lemma raise_none : forall p cs, ~ In p (peers_of cs) -> raise p cs = cs.
Proof.
  intros p cs. induction cs as [|c t IH]; intro H; [reflexivity|]. cbn [raise map peers_of In] in *. f_equal; [|apply IH; tauto].
  unfold raise1. destruct (addr_eqb (c_peer c) p) eqn:E; [|reflexivity]. apply addr_eqb_spec in E. tauto.
Qed.
Lemma raise_split : forall a c b, NoDup (peers_of (a ++ c :: b)) -> raise (c_peer c) (a ++ c :: b) = a ++ raise1 (c_peer c) c :: b.
Proof.
  intros a c b N. unfold peers_of in N. rewrite map_app in N. cbn [map] in N. apply NoDup_remove_2 in N. rewrite in_app_iff in N.
  unfold raise. rewrite map_app. cbn [map]. fold (raise (c_peer c) a). fold (raise (c_peer c) b). rewrite !raise_none; auto.
Qed.
Lemma greedy_stays : forall k cs p, pick cs = Some p -> raise p cs = cs -> greedy k cs = repeat p k.
Proof. induction k as [|k IH]; intros cs p P R; [reflexivity|]. cbn [greedy repeat]. rewrite P, R. f_equal. auto. Qed.
Lemma firstn_rep : forall A (x : A) n j, firstn j (repeat x n) = repeat x (Nat.min j n).
Proof. induction n as [|n IH]; intros [|j]; cbn; auto. f_equal. apply IH. Qed.
Lemma greedy_pass : forall l rest done k, l < 4 -> NoDup (peers_of (done ++ rest)) -> (forall c, In c done -> l < c_load c) -> (forall c, In c rest -> l <= c_load c) ->
  greedy k (done ++ rest) = match ahead l rest with
  | (a, Some w) => firstn k (a ++ repeat w k)
  | (a, None) => firstn k a ++ greedy (k - length a) (done ++ given l rest)
  end.
Proof.
  intros l. induction rest as [|c t IH]; intros done k L N D R.
  - cbn [ahead given map firstn length]. rewrite firstn_nil, Nat.sub_0_r. reflexivity.
  - cbn [ahead given map]. fold (given l t). destruct (Nat.eqb_spec (c_load c) l) as [E|E].
    + assert (P : pick (done ++ c :: t) = Some (c_peer c)).
      { apply pick_at with l; auto.
        - intros x Hx. apply in_app_iff in Hx as [Hx|Hx]; [specialize (D x Hx); lia|auto].
        - rewrite first_at_app, first_at_none; [|intros x Hx; specialize (D x Hx); lia]. cbn [first_at]. rewrite E, Nat.eqb_refl. reflexivity. }
      pose proof (raise_split done c t N) as RS. unfold raise1 in RS. rewrite addr_rfl in RS. cbn [andb] in RS. destruct (c_works c) eqn:W; cbn [negb] in RS.
      * cbn [app]. rewrite (greedy_stays k P RS). rewrite firstn_all2; [reflexivity|]. rewrite repeat_length. lia.
      * destruct k as [|k]; [cbn [greedy firstn app]; destruct (snd (ahead l t)); reflexivity|].
        cbn [greedy]. rewrite P, RS, E. set (c' := mk_cand (c_peer c) (S l) true).
        assert (N' : NoDup (peers_of ((done ++ [c']) ++ t))). { rewrite <- app_assoc. cbn [app]. unfold peers_of in *. rewrite map_app in *. exact N. }
        assert (D' : forall x, In x (done ++ [c']) -> l < c_load x). { intros x Hx. apply in_app_iff in Hx as [Hx|[<-|[]]]; [auto|cbn; lia]. }
        specialize (IH (done ++ [c']) k L N' D' (fun x Hx => R x (or_intror Hx))). rewrite <- !app_assoc in IH. cbn [app] in IH. rewrite IH.
        destruct (ahead l t) as [a [w|]]; cbn [fst snd app firstn length Nat.sub]; f_equal.
        rewrite !firstn_app, !firstn_rep. f_equal. f_equal. lia.
    + specialize (IH (done ++ [c]) k L). rewrite <- !app_assoc in IH. cbn [app] in IH. apply IH; auto.
      * intros x Hx. apply in_app_iff in Hx as [Hx|[<-|[]]]; auto. specialize (R c (or_introl eq_refl)). lia.
      * intros x Hx. apply R. right; auto.
Qed.

Lemma least_le : forall cs c, In c cs -> least cs <= c_load c.
Proof. induction cs as [|x t IH]; intros c []; cbn [least fold_right]; fold (least t); [subst; lia|specialize (IH c H); lia]. Qed.
Lemma least_at : forall cs, least cs < 4 -> exists c, In c cs /\ c_load c = least cs.
Proof.
  induction cs as [|x t IH]; cbn [least fold_right]; [lia|]. fold (least t). intro H. destruct (Nat.le_gt_cases (c_load x) (least t)).
  - exists x. cbn. split; auto. lia.
  - destruct IH as (c & A & B); [lia|]. exists c. cbn. split; auto. lia.
Qed.
Lemma least_four : forall cs, least cs <= 4.
Proof. induction cs as [|x t IH]; cbn [least fold_right]; [lia|]. fold (least t). lia. Qed.
Lemma greedy_none : forall k cs, (forall c, In c cs -> 4 <= c_load c) -> greedy k cs = [].
Proof.
  intros k cs H. destruct k; [reflexivity|]. cbn [greedy]. unfold pick. rewrite !first_at_none; auto; intros c Hc; specialize (H c Hc); lia.
Qed.
Lemma given_peers : forall l cs, peers_of (given l cs) = peers_of cs.
Proof. intros l cs. unfold peers_of, given. rewrite map_map. apply map_ext. intro c. destruct (_ =? _); reflexivity. Qed.
Lemma given_load : forall l cs c, (forall x, In x cs -> l <= c_load x) -> In c (given l cs) -> S l <= c_load c.
Proof.
  intros l cs c H X. apply in_map_iff in X as (x & E & X). specialize (H x X). destruct (Nat.eqb_spec (c_load x) l); subst c; [cbn; lia|lia].
Qed.
Lemma ahead_stop : forall l cs, (exists c, In c cs /\ c_load c = l /\ c_works c = true) -> snd (ahead l cs) <> None.
Proof.
  induction cs as [|x t IH]; intros (c & H & A & B); [destruct H|]. cbn [ahead]. destruct H as [->|H].
  - rewrite A, Nat.eqb_refl, B. discriminate.
  - destruct (_ =? _); [destruct (c_works x); [discriminate|cbn [snd]]|]; apply IH; eauto.
Qed.
Lemma greedy_shares : forall k cs, NoDup (peers_of cs) -> greedy k cs = firstn k (fst (shares cs) ++ left_over (snd (shares cs)) k).
Proof.
  intros k cs N. unfold shares. destruct (Nat.leb_spec 4 (least cs)) as [L|L].
  - cbn [fst snd left_over app]. rewrite firstn_nil. apply greedy_none. intros c Hc. pose proof (least_le cs c Hc). lia.
  - pose proof (@greedy_pass (least cs) cs [] k L N ltac:(intros c []) (least_le cs)) as G. cbn [app] in G. rewrite G. clear G.
    destruct (ahead (least cs) cs) as [a [w|]]; [reflexivity|]. destruct (Nat.eqb_spec (least cs) 3) as [E|E].
    + cbn [fst snd left_over]. rewrite app_nil_r, greedy_none, app_nil_r; auto. intros c Hc. apply given_load in Hc; [lia|apply least_le].
    + set (l := least cs) in *. pose proof (@greedy_pass (S l) (given l cs) [] (k - length a) ltac:(lia)) as G. cbn [app] in G. rewrite G; clear G.
      * assert (ST : snd (ahead (S l) (given l cs)) <> None).
        { apply ahead_stop. destruct (@least_at cs L) as (c & A & B). exists (mk_cand (c_peer c) (S l) true). split; auto.
          apply in_map_iff. exists c. fold l in B. rewrite B, Nat.eqb_refl. auto. }
        destruct (ahead (S l) (given l cs)) as [b [w|]]; [|destruct (ST eq_refl)]. cbn [fst snd left_over].
        rewrite <- app_assoc, !firstn_app, !firstn_rep. f_equal. f_equal. f_equal. lia.
      * rewrite given_peers. exact N.
      * intros c [].
      * intros c Hc. apply given_load in Hc; auto. apply least_le.
Qed.
Lemma cand_peers : forall i ps, incl (peers_of (flat_map (cand_of i) ps)) (map fst ps) /\ (NoDup (map fst ps) -> NoDup (peers_of (flat_map (cand_of i) ps))).
Proof.
  intros i. induction ps as [|[p inf] t [IH1 IH2]]; [split; [intros x []|intros; constructor]|]. cbn [flat_map map fst].
  unfold cand_of at 1 3. cbn [fst snd]. destruct (_ && _); cbn [app peers_of map c_peer].
  - split; [intros x [<-|H]; [left; auto|right; apply IH1; auto]|]. intro N. inversion N as [|? ? N1 N2]; subst. constructor; [intro H; apply N1, IH1; auto|auto].
  - split; [intros x H; right; apply IH1; auto|]. intro N. inversion N; subst. auto.
Qed.
Lemma ahead_in : forall l cs, (forall p, In p (fst (ahead l cs)) -> exists c, In c cs /\ c_peer c = p /\ c_load c = l /\ c_works c = false) /\
  (NoDup (peers_of cs) -> NoDup (fst (ahead l cs))).
Proof.
  intros l cs. induction cs as [|x t [IH1 IH2]]; [split; [intros p []|constructor]|].
  assert (W : forall p, In p (fst (ahead l t)) -> exists c, In c (x :: t) /\ c_peer c = p /\ c_load c = l /\ c_works c = false).
  { intros p Hp. destruct (IH1 p Hp) as (c & A & B). exists c. split; [right; auto|auto]. }
  cbn [ahead peers_of map]. destruct (Nat.eqb_spec (c_load x) l) as [E|E]; [destruct (c_works x) eqn:F|]; cbn [fst].
  - split; [intros p []|constructor].
  - split.
    + intros p [<-|Hp]; [exists x; cbn; auto|apply W; auto].
    + intro N. inversion N as [|? ? N1 N2]; subst. constructor; auto. intro H. apply N1. destruct (IH1 _ H) as (c & A & <- & _). apply in_map. exact A.
  - split; [exact W|]. intro N. inversion N; subst. auto.
Qed.
Lemma NoDup_app_intro : forall A (a b : list A), NoDup a -> NoDup b -> (forall x, In x a -> In x b -> False) -> NoDup (a ++ b).
Proof.
  induction a as [|x a IH]; intros b NA NB D; [exact NB|]. inversion NA; subst. cbn. constructor; [|apply IH; auto; intros y Y1 Y2; apply (D y); cbn; auto].
  intro H. apply in_app_iff in H as [H|H]; [contradiction|]. apply (D x); cbn; auto.
Qed.
Lemma shares_once : forall cs, NoDup (peers_of cs) -> NoDup (fst (shares cs)).
Proof.
  intros cs N. unfold shares. destruct (4 <=? least cs); [constructor|]. destruct (ahead_in (least cs) cs) as [A1 A2]. specialize (A2 N).
  destruct (ahead (least cs) cs) as [a [w|]]; cbn [fst] in *; auto. destruct (_ =? 3); cbn [fst]; auto.
  destruct (ahead_in (S (least cs)) (given (least cs) cs)) as [B1 B2]. rewrite given_peers in B2. specialize (B2 N).
  apply NoDup_app_intro; auto. intros p P1 P2. destruct (A1 p P1) as (c & C1 & C2 & C3 & _). destruct (B1 p P2) as (d & D1 & D2 & D3 & D4).
  apply in_map_iff in D1 as (x & X1 & X2). destruct (Nat.eqb_spec (c_load x) (least cs)) as [E|E]; subst d; [discriminate D4|].
  assert (c = x); [|subst; lia]. clear - N C1 X2 C2 D2. subst p. revert N C1 X2 D2. induction cs as [|y t IH]; intros N C1 X2 D; [destruct C1|].
  cbn [peers_of map] in N. inversion N as [|? ? N1 N2]; subst. destruct C1 as [C|C], X2 as [X|X]; subst; auto.
  - destruct N1. rewrite <- D. apply in_map. exact X.
  - destruct N1. rewrite D. apply in_map. exact C.
Qed.
Lemma told_shares : forall hs s s' out i f, sys_reach hs s -> first_wanted (fst s) i -> sys_step s (EAssign f) = Val (s', out) ->
  NoDup (peers_of (candidates (fst s) i)) /\
  told_peers out = firstn (getting_through (fst s) f) (fst (shares (candidates (fst s) i)) ++ left_over (snd (shares (candidates (fst s) i))) (getting_through (fst s) f)).
Proof.
  intros hs s s' out i f R FW E. destruct (reach_inv_m R) as [I _]. cbn [sys_step] in E. destruct (m_assign (fst s) f) as [[m' o']| |] eqn:H; try discriminate. injection E as <- <-.
  destruct (assign_is_loop _ I H) as [H' L]. assert (N : NoDup (peers_of (candidates (fst s) i))) by (apply cand_peers, (i_nodup I)). split; auto.
  cbn [snd]. rewrite (@loop_greedy _ _ _ _ _ _ i I L (reach_known R) FW H'). apply greedy_shares. exact N.
Qed.
Lemma NoDup_firstn : forall A (l : list A) k, NoDup l -> NoDup (firstn k l).
Proof.
  induction l as [|x l IH]; intros [|k] N; cbn; try constructor; inversion N; subst; auto. intro H. apply H1. clear - H. revert k H. induction l as [|y l IHl]; intros [|k] []; [left|right]; eauto.
Qed.
Lemma firstn_room : forall a (w : addr) k, NoDup a -> (NoDup (firstn k (a ++ repeat w k)) <-> k <= (if existsb (addr_eqb w) a then length a else S (length a))).
Proof.
  intros a w k N. rewrite firstn_app, firstn_rep. replace (Nat.min (k - length a) k) with (k - length a) by lia. destruct (existsb (addr_eqb w) a) eqn:X.
  - apply existsb_exists in X as (y & Y & E). apply addr_eqb_spec in E. subst y. split; intro H.
    + destruct (Nat.le_gt_cases k (length a)) as [?|G]; auto. exfalso. rewrite firstn_all2 in H by lia. destruct (k - length a) as [|j] eqn:Z; [lia|]. cbn [repeat] in H. apply NoDup_remove_2 in H. apply H. apply in_app_iff. auto.
    + replace (k - length a) with 0 by lia. cbn. rewrite app_nil_r. apply NoDup_firstn. auto.
  - assert (NW : ~ In w a). { intro H. assert (existsb (addr_eqb w) a = true); [|congruence]. apply existsb_exists. exists w. split; auto. apply addr_rfl. }
    split; intro H.
    + destruct (Nat.le_gt_cases k (S (length a))) as [?|G]; auto. exfalso. rewrite firstn_all2 in H by lia. destruct (k - length a) as [|[|j]] eqn:Z; [lia|lia|]. cbn [repeat] in H. apply NoDup_remove_2 in H. apply H. apply in_app_iff. right. left. auto.
    + destruct (Nat.le_gt_cases k (length a)) as [G|G].
      * replace (k - length a) with 0 by lia. cbn. rewrite app_nil_r. apply NoDup_firstn. auto.
      * rewrite firstn_all2 by lia. replace (k - length a) with 1 by lia. cbn [repeat]. apply NoDup_app_intro; auto; [constructor; [intros []|constructor]|]. intros x A [<-|[]]. auto.
Qed.

(** ** Theorems *)
(** One round of assignments: exactly who is told, in which order and how often.
    Only the first wanted piece is given out. Each of the least busy peers that
    offer it gets one command, up to the first one of them that works on it already:
    that one gets all the rest. If none of them works on it, and each works on fewer
    than three pieces, those with one piece more come next, and again the first one
    that works on the piece by now gets all the rest. *)
Theorem C65_told : forall hs s s' out i f, sys_reach hs s -> first_wanted (fst s) i -> sys_step s (EAssign f) = Val (s', out) ->
  told_peers out = firstn (getting_through (fst s) f)
    (fst (shares (candidates (fst s) i)) ++ left_over (snd (shares (candidates (fst s) i))) (getting_through (fst s) f)).
Proof. intros hs s s' out i f R FW E. apply (told_shares f R FW E). Qed.
(** Exactly when nobody is told twice in a round. *)
Theorem C65_exact : forall hs s s' out i f, sys_reach hs s -> first_wanted (fst s) i -> sys_step s (EAssign f) = Val (s', out) ->
  (NoDup (told_peers out) <-> match room (shares (candidates (fst s) i)) with None => True | Some r => getting_through (fst s) f <= r end).
Proof.
  intros hs s s' out i f R FW E. destruct (told_shares f R FW E) as [N T]. rewrite T. apply shares_once in N. unfold room.
  destruct (snd (shares (candidates (fst s) i))) as [w|]; cbn [left_over].
  - apply firstn_room. exact N.
  - rewrite app_nil_r. split; auto. intros _. apply NoDup_firstn. exact N.
Qed.
(** In particular, if those that offer the piece work on equally many pieces, fewer
    than three, and none works on this one, each is told once and the first of them
    gets all the commands left over. *)
Theorem C65_equal : forall hs s s' out i f c t l, sys_reach hs s -> first_wanted (fst s) i -> candidates (fst s) i = c :: t -> l < 3 ->
  (forall x, In x (c :: t) -> c_load x = l /\ c_works x = false) -> sys_step s (EAssign f) = Val (s', out) ->
  told_peers out = firstn (getting_through (fst s) f) (map c_peer (c :: t) ++ repeat (c_peer c) (getting_through (fst s) f)).
Proof.
  intros hs s s' out i f c t l R FW C L A E. destruct (told_shares f R FW E) as [_ T]. rewrite T, C. clear - L A.
  assert (LE : least (c :: t) = l).
  { assert (G : forall cs, (forall x, In x cs -> c_load x = l) -> least cs = 4 \/ least cs = l).
    { induction cs as [|x cs IH]; intro H; [left; reflexivity|]. cbn [least fold_right]. fold (least cs). rewrite (H x (or_introl eq_refl)). destruct IH as [->| ->]; [intros; apply H; right; auto|right; lia|right; lia]. }
    destruct (G (c :: t)) as [X|X]; [intros x Hx; apply A; auto| |exact X]. pose proof (least_le (c :: t) c (or_introl eq_refl)). destruct (A c (or_introl eq_refl)). lia. }
  unfold shares. rewrite LE. replace (4 <=? l) with false by (symmetry; apply Nat.leb_gt; lia).
  assert (AH : forall cs, (forall x, In x cs -> c_load x = l /\ c_works x = false) -> ahead l cs = (map c_peer cs, None)).
  { induction cs as [|x cs IH]; intro H; [reflexivity|]. cbn [ahead map]. destruct (H x (or_introl eq_refl)) as [-> ->]. rewrite Nat.eqb_refl, IH; [reflexivity|]. intros; apply H; right; auto. }
  rewrite AH by exact A. replace (l =? 3) with false by (symmetry; apply Nat.eqb_neq; lia). destruct (A c (or_introl eq_refl)) as [Ac _].
  cbn [given map ahead]. rewrite Ac, Nat.eqb_refl. cbn [c_load c_works c_peer]. rewrite Nat.eqb_refl. cbn [fst snd left_over]. rewrite app_nil_r. reflexivity.
Qed.

(** ** Examples *)
(** Two peers offer piece 0 and one of them works on it already; of the eight
    commands of the next round the other one gets the first, and all the rest go to
    the one that worked on it before. *)
Example C65_told_example : exists s s' out, sys_reach three s /\ first_wanted (fst s) 0 /\ sys_step s (EAssign all_taken) = Val (s', out) /\
  shares (candidates (fst s) 0) = ([pa 2], Some (pa 1)) /\ room (shares (candidates (fst s) 0)) = Some 2 /\ getting_through (fst s) all_taken = 8 /\ length (told_peers out) = 8.
Proof.
  eexists. eexists. eexists. split; [|split; [|split; [|split; [|split; [|split]]]]].
  - eexists. exists ex_two. split; [eexists; split; [vm_compute; reflexivity|reflexivity]|]. cbn [ex_two ex_history app]. do 8 go. apply sr_nil.
  - split; [split; [reflexivity|split; [apply Nat.ltb_lt; reflexivity|reflexivity]]|lia].
  - vm_compute. reflexivity.
  - vm_compute. reflexivity.
  - vm_compute. reflexivity.
  - vm_compute. reflexivity.
  - vm_compute. reflexivity.
Qed.
(** Two peers offer piece 0 and neither works on anything: nine commands, the second
    one gets one of them. *)
Definition ex_idle : list (mevent * list mout) := ex_history ++ [(EMsg (pa 2) CUnchoke, []); (EMsg (pa 2) (CHave 0), [])].
Example C65_equal_example : exists s s' out, sys_reach three s /\ first_wanted (fst s) 0 /\ candidates (fst s) 0 = [mk_cand (pa 1) 0 false; mk_cand (pa 2) 0 false] /\
  sys_step s (EAssign all_taken) = Val (s', out) /\ told_peers out = pa 1 :: pa 2 :: repeat (pa 1) 7.
Proof.
  eexists. eexists. eexists. split; [|split; [|split; [|split]]].
  - eexists. exists ex_idle. split; [eexists; split; [vm_compute; reflexivity|reflexivity]|]. cbn [ex_idle ex_history app]. do 7 go. apply sr_nil.
  - split; [split; [reflexivity|split; [apply Nat.ltb_lt; reflexivity|reflexivity]]|lia].
  - vm_compute. reflexivity.
  - vm_compute. reflexivity.
  - vm_compute. reflexivity.
Qed.
Print Assumptions C65_told.
Print Assumptions C65_exact.
Print Assumptions C65_equal.
