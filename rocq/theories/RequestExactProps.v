(** C110, exactly: which requests a downloader has open. *)
From Coq Require Import List NArith ZArith Lia Bool Arith.
From Coq Require Import Init.Byte.
From Verif Require Import Base Assoc BitmapModel IdModel WireModel PendingModel PendingSpec PendingProofs PendingProps RequestSpec RequestProps.
Import ListNotations.
Set Implicit Arguments.

(** ** The account: requests open, oldest first *)
(** A block closes the first request with its offset, whatever its piece. *)
Fixpoint close (o : N) (l : list request) : list request :=
  match l with
  | [] => []
  | r :: t => if (rq_begin r =? o)%N then t else r :: close o t
  end.
(** A block of a piece that is not assigned closes nothing. *)
Definition settle (before : list dl_event) (open : list request) (e : dl_event) : list request :=
  match e with
  | EvBlock m => match assigned (N.to_nat (pm_index m)) before with Some _ => close (pm_begin m) open | None => open end
  | _ => open
  end.
Fixpoint account (before : list dl_event) (open : list request) (h : list wake) : list request :=
  match h with
  | [] => open
  | w :: t => account (before ++ [w_event w]) (settle before open (w_event w) ++ w_sent w) t
  end.
(** How many requests were answered. *)
Fixpoint answered (before : list dl_event) (open : list request) (h : list wake) : nat :=
  match h with
  | [] => 0
  | w :: t => (length open - length (settle before open (w_event w))) +
              answered (before ++ [w_event w]) (settle before open (w_event w) ++ w_sent w) t
  end.

Lemma close_le : forall o l, length (close o l) <= length l.
Proof. intros o l. induction l as [|r t IH]; cbn [close length]; [lia|]. destruct (_ =? _)%N; cbn [length]; lia. Qed.
Lemma settle_le : forall before l e, length (settle before l e) <= length l.
Proof.
  intros before l [m|h i|i]; cbn [settle]; auto. destruct (assigned _ _); auto. apply close_le.
Qed.
Lemma account_app : forall h before open w,
  account before open (h ++ [w]) = settle (before ++ map w_event h) (account before open h) (w_event w) ++ w_sent w.
Proof.
  induction h as [|x t IH]; intros before open w; cbn [app account map].
  - rewrite app_nil_r. reflexivity.
  - rewrite IH. rewrite <- app_assoc. reflexivity.
Qed.
Lemma account_count : forall h before open,
  length (account before open h) + answered before open h = length open + length (concat (map w_sent h)).
Proof.
  induction h as [|w t IH]; intros before open; cbn [account answered map concat]; [cbn; lia|].
  pose proof (settle_le before open (w_event w)). specialize (IH (before ++ [w_event w]) (settle before open (w_event w) ++ w_sent w)).
  rewrite app_length in IH. rewrite app_length. lia.
Qed.

(** Offsets fit in 32 bits. *)
Definition fits (a : block_addr) : Prop := (N.of_nat (ba_block a * BLOCK_SIZE) < 2 ^ 32)%N.
Lemma n_blocks_fit : forall pl b, (N.of_nat pl <= 2 ^ 32)%N -> 0 < pl -> b < n_blocks pl -> (N.of_nat (b * BLOCK_SIZE) < 2 ^ 32)%N.
Proof.
  intros pl b H P B. pose proof (n_blocks_bounds P) as [X _]. pose proof BS_pos.
  assert (b * BLOCK_SIZE <= (n_blocks pl - 1) * BLOCK_SIZE) by (apply Nat.mul_le_mono_r; lia). lia.
Qed.
Lemma fits_begin : forall a, fits a -> rq_begin (request_of a) = N.of_nat (ba_block a * BLOCK_SIZE).
Proof. intros a H. unfold request_of. cbn [rq_begin]. apply N.mod_small. exact H. Qed.
Lemma close_remove : forall l m, Forall fits l -> N.to_nat (pm_begin m) mod BLOCK_SIZE = 0 ->
  close (pm_begin m) (map request_of l) =
  match remove_block (N.to_nat (pm_begin m) / BLOCK_SIZE) l with Some (_, rest) => map request_of rest | None => map request_of l end.
Proof.
  intros l m F E. pose proof BS_pos as HB. pose proof (offset_block _ E) as OB.
  induction F as [|a l Fa F IH]; cbn [map close remove_block]; auto. rewrite (fits_begin Fa).
  destruct (Nat.eqb_spec (ba_block a) (N.to_nat (pm_begin m) / BLOCK_SIZE)) as [X|X].
  - replace (N.of_nat (ba_block a * BLOCK_SIZE) =? pm_begin m)%N with true; auto. symmetry. apply N.eqb_eq. rewrite X, <- OB. lia.
  - destruct (N.eqb_spec (N.of_nat (ba_block a * BLOCK_SIZE)) (pm_begin m)) as [Y|Y].
    + exfalso. apply X. rewrite <- Y, Nat2N.id, Nat.div_mul; lia.
    + rewrite IH. destruct (remove_block _ l) as [[r rest]|]; reflexivity.
Qed.
Lemma close_unaligned : forall l m, Forall fits l -> N.to_nat (pm_begin m) mod BLOCK_SIZE <> 0 ->
  close (pm_begin m) (map request_of l) = map request_of l.
Proof.
  intros l m F E. pose proof BS_pos as HB. induction F as [|a l Fa F IH]; cbn [map close]; auto. rewrite (fits_begin Fa).
  destruct (N.eqb_spec (N.of_nat (ba_block a * BLOCK_SIZE)) (pm_begin m)) as [Y|Y].
  - exfalso. apply E. rewrite <- Y, Nat2N.id, Nat.mod_mul; lia.
  - rewrite IH. reflexivity.
Qed.
(** Handling an event leaves the open requests settled, and maybe one to send
    again behind them. *)
Lemma handle_settles : forall sha1 c s d e s1 d1 fin evs, dl_handle sha1 c s d e = Val (s1, d1, fin) -> dinv evs d -> Forall fits (dl_blocks d) ->
  exists rest again, dl_blocks d1 = rest ++ again /\ map request_of rest = settle evs (map request_of (dl_blocks d)) e /\
    all_requested rest /\ (forall a, In a again -> ba_status a = Queued) /\ Forall fits (rest ++ again).
Proof.
  intros sha1 c s d e s1 d1 fin evs H (IC & IN & IA & IR & IP) F.
  assert (SAME : dl_blocks d1 = dl_blocks d -> settle evs (map request_of (dl_blocks d)) e = map request_of (dl_blocks d) ->
    exists rest again, dl_blocks d1 = rest ++ again /\ map request_of rest = settle evs (map request_of (dl_blocks d)) e /\
    all_requested rest /\ (forall a, In a again -> ba_status a = Queued) /\ Forall fits (rest ++ again)).
  { intros E1 E2. exists (dl_blocks d), []. rewrite app_nil_r, E2. repeat split; auto. intros a []. }
  destruct e as [m|h i|i]; cbn [dl_handle] in H; [|injection H as <- <- <-; apply SAME; reflexivity..].
  unfold dl_block in H. cbn [settle] in *. rewrite assigned_announced, <- IA in *.
  destruct (Nat.eqb_spec (N.to_nat (pm_begin m) mod BLOCK_SIZE) 0) as [E0|E0]; cbn [negb] in H.
  2:{ injection H as <- <- <-. apply SAME; auto. destruct (dmget _ _); auto. apply close_unaligned; auto. }
  destruct (dmget (N.to_nat (pm_index m)) (dl_pieces d)) as [h|] eqn:G; [|injection H as <- <- <-; apply SAME; auto].
  rewrite (close_remove _ F E0) in *.
  destruct (remove_block _ (dl_blocks d)) as [[rm rest]|] eqn:R; [|injection H as <- <- <-; apply SAME; auto].
  clear SAME. apply remove_block_spec in R as (RB & a & b & EL & ER).
  assert (AR : all_requested rest).
  { rewrite EL in IR. subst rest. apply Forall_app in IR as [A1 A2]. inversion A2; subst. apply Forall_app. auto. }
  assert (FR : Forall fits rest /\ fits rm).
  { rewrite EL in F. subst rest. apply Forall_app in F as [A1 A2]. inversion A2; subst. split; auto. apply Forall_app. auto. }
  destruct FR as [FR FM].
  assert (DONE : dl_blocks d1 = rest -> exists rest0 again, dl_blocks d1 = rest0 ++ again /\ map request_of rest0 = map request_of rest /\
    all_requested rest0 /\ (forall a, In a again -> ba_status a = Queued) /\ Forall fits (rest0 ++ again)).
  { intro E1. exists rest, []. rewrite app_nil_r. repeat split; auto. intros x []. }
  destruct (pp_add_block c s _ _ _) as [[s0 r]| |]; cbn [rbind snd fst] in H; try discriminate.
  destruct r as [| |idx ds]; [|discriminate|].
  - injection H as <- <- <-. exists rest, [mk_ba (ba_piece rm) (ba_block rm) Queued]. cbn [dl_blocks].
    split; [reflexivity|]. split; [reflexivity|]. split; [exact AR|]. split.
    + intros x [<-|[]]. reflexivity.
    + apply Forall_app. split; [exact FR|]. constructor; [exact FM|constructor].
  - destruct (bytes_eqb _ _); [injection H as <- <- <-; auto|].
    destruct (pp_add_piece _ _) as [s2| |]; [| |discriminate]; injection H as <- <- <-; auto.
Qed.
Lemma handle_piece_length : forall sha1 c s d e s1 d1 fin, dl_handle sha1 c s d e = Val (s1, d1, fin) -> preach c s -> all_requested (dl_blocks d) ->
  pp_piece_length s1 = pp_piece_length s.
Proof.
  intros sha1 c s d e s1 d1 fin EH P IR. destruct (dl_handle_spec _ _ _ EH P IR) as (_ & _ & _ & _ & _ & SS).
  assert (AB : forall k b x s2 r, pp_add_block c s k b x = Val (s2, r) -> pp_piece_length s2 = pp_piece_length s).
  { clear. intros k b x s2 r H. unfold pp_add_block in H. destruct (negb _); [injection H as <- <-; auto|].
    destruct (pmget k (pp_data s)) as [p|]; [|injection H as <- <-; auto]. destruct (_ <=? _); [discriminate|].
    destruct (usize_dec c (pc_pending p)); cbn [rbind] in H; try discriminate. destruct (_ =? _); [|injection H as <- <-; auto].
    destruct (blocks_data _); cbn [rbind] in H; try discriminate. injection H as <- <-. auto. }
  destruct SS as [->|(m & b & _ & _ & [(ds & EA)|(s0 & ds & hh & EA & _ & _ & [->|EP])])]; auto; apply AB in EA; auto.
  unfold pp_add_piece in EP. destruct (pmget _ _); [injection EP as <-; auto|]. destruct (_ <=? _); [discriminate|].
  destruct (pc_new _); cbn [rbind] in EP; try discriminate. injection EP as <-. auto.
Qed.
Lemma send_account : forall rest new, all_requested rest -> (forall a, In a new -> ba_status a = Queued) ->
  map request_of (snd (dl_send (rest ++ new))) = map request_of rest ++ fst (dl_send (rest ++ new)).
Proof.
  intros rest new A Q. rewrite send_app, (send_requested A), (send_queued _ Q). cbn [app].
  unfold dl_send. cbn [snd]. rewrite map_map, map_app. f_equal; apply map_ext; intros [k b []]; reflexivity.
Qed.
Lemma send_fits : forall l, Forall fits l -> Forall fits (snd (dl_send l)).
Proof.
  intros l F. unfold dl_send. cbn [snd]. apply Forall_map. eapply Forall_impl; [|exact F]. intros [k b []] H; exact H.
Qed.
Lemma wanted_fits : forall c now s k b, preach c s -> (N.of_nat (pp_piece_length s) <= 2 ^ 32)%N -> wanted now s k b ->
  (N.of_nat (b * BLOCK_SIZE) < 2 ^ 32)%N.
Proof.
  intros c now s k b P L W. pose proof (preach_wf P) as (HP & EB & _).
  assert (X : exists x, block_at s k b = Some x) by (destruct W as [W|(? & ? & W & _)]; eauto). destruct X as [x X].
  unfold block_at in X. destruct (pmget k (pp_data s)) as [q|] eqn:G; [|discriminate].
  eapply n_blocks_fit; eauto. rewrite <- EB, <- (@wf_get s k q (preach_wf P) G). apply nth_error_Some. congruence.
Qed.

(** ** C110 *)
(** The open requests, in order: those sent, without the first with the same
    offset for every block received of an assigned piece. *)
Definition narrow (h : list wake) : Prop := Forall (fun w => (N.of_nat (pp_piece_length (w_shared w)) <= 2 ^ 32)%N) h.
Theorem C110_exact : forall sha1 c h d, lived sha1 c h d -> narrow h ->
  map request_of (dl_blocks d) = account [] [] h.
Proof.
  intros sha1 c h d L NR. enough (map request_of (dl_blocks d) = account [] [] h /\ Forall fits (dl_blocks d)) by tauto. revert NR.
  induction L as [|h d now s e s' d' fin reqs L IH P E]; intro NR; [split; [reflexivity|constructor]|].
  apply Forall_app in NR as [N1 N2]. inversion N2 as [|? ? N3 _]; subst. cbn [w_shared] in N3. destruct (IH N1) as [EQ F].
  pose proof (lived_dinv L) as DI. destruct (dl_step_parts _ _ _ _ _ _ E) as (s1 & d1 & bl & cp & EH & ET & -> & ->).
  destruct (@handle_settles _ _ _ _ _ _ _ _ _ EH DI F) as (rest & again & EB & ES & AR & AQ & FF).
  pose proof DI as (_ & _ & _ & IR & _). destruct (dl_handle_spec _ _ _ EH P IR) as (P1 & _).
  pose proof (@handle_piece_length _ _ _ _ _ _ _ _ EH P IR) as PL.
  rewrite account_app. cbn [app w_event w_sent dl_blocks]. rewrite <- EQ, <- ES.
  destruct ET as [[M ET]|(M & -> & -> & ->)].
  - destruct (@taken_facts c s1 now _ _ _ s' _ _ P1 ET) as (new & -> & ND & Q & _). rewrite EB, <- app_assoc. split.
    + apply send_account; auto. intros a Ha. apply in_app_iff in Ha as [Ha|Ha]; auto. apply (Q a Ha).
    + apply send_fits. rewrite app_assoc. apply Forall_app. split; auto. apply Forall_forall. intros a Ha. destruct (Q a Ha) as (_ & _ & W).
      eapply wanted_fits; [exact P1| |exact W]. rewrite PL. exact N3.
  - rewrite EB. split; [apply send_account; auto|apply send_fits; auto].
Qed.
Print Assumptions C110_exact.
(** Open and answered requests together are the requests sent. *)
Theorem C110_count : forall sha1 c h d, lived sha1 c h d -> narrow h ->
  length (dl_blocks d) + answered [] [] h = length (concat (map w_sent h)).
Proof.
  intros sha1 c h d L NR. pose proof (account_count h [] []) as X. rewrite <- (C110_exact L NR), map_length in X. exact X.
Qed.
Print Assumptions C110_count.
(** A silent peer: every request ever sent stays open. *)
Theorem C110_silent : forall sha1 c h d, lived sha1 c h d -> narrow h -> (forall w m, In w h -> w_event w <> EvBlock m) ->
  map request_of (dl_blocks d) = concat (map w_sent h).
Proof.
  intros sha1 c h d L NR S. rewrite (C110_exact L NR). clear L NR.
  assert (X : forall h before open, (forall w m, In w h -> w_event w <> EvBlock m) -> account before open h = open ++ concat (map w_sent h)).
  { clear. induction h as [|w t IH]; intros before open S; cbn [account map concat]; [rewrite app_nil_r; auto|].
    rewrite IH; [|intros; apply S; cbn; auto]. rewrite app_assoc. f_equal. f_equal. destruct (w_event w) eqn:E; auto.
    exfalso. eapply S; [left; reflexivity|exact E]. }
  apply X. exact S.
Qed.
Print Assumptions C110_silent.
(** A downloader that has sent two requests, of which one was answered. *)
Example C110_exact_example : exists h d, lived (fun _ => ex_h) false h d /\ narrow h /\ length (concat (map w_sent h)) = 2 /\
  account [] [] h = [block_request 4 0] /\ answered [] [] h = 1 /\ dl_blocks d <> [].
Proof.
  set (s := ex_s 5 [3; 4]). set (evs := ex_evs ++ [(3, EvBlock (mk_piece 3 0 [x00; x00; x00; x00; x00]))]).
  assert (P : preach false s).
  { eapply preach_run with (ops := [OAdd 3; OAdd 4]); [apply (@preach_empty false 5 ex_peer); lia|]. vm_compute. reflexivity. }
  destruct (alone (fun _ => ex_h) false s dl_init evs) as [[[s' d'] h']| |] eqn:E; [|vm_compute in E; discriminate..].
  destruct (@alone_lived (fun _ => ex_h) false evs s dl_init [] s' d' h' (lv_start _ _) P E) as (_ & L). cbn [app] in L.
  exists h', d'. vm_compute in E. injection E as _ <- <-. split; [exact L|].
  split; [repeat (constructor; [vm_compute; discriminate|]); constructor|].
  split; [reflexivity|]. split; [reflexivity|]. split; [reflexivity|discriminate].
Qed.
