(** C139: which connections the handle keeps open, and what ends a download
    task. *)
From Coq Require Import List NArith ZArith Lia Bool Arith.
From Coq Require Import Init.Byte.
From Verif Require Import Base Assoc BitmapModel IdModel WireModel TableModel PeersModel PeersProofs PendingModel PendingSpec PendingProofs ConnModel ConnSpec ConnProps.
Import ListNotations.
Set Implicit Arguments.

(** The manager's last word about peer [p] was to connect to it. *)
Definition linked (p : addr) (h : list ev) : bool :=
  fold_left (fun c e => match e with Connect q => if addr_eqb q p then true else c | Disconnect q => if addr_eqb q p then false else c | _ => c end) h false.
(** Task [t] belongs to [p] and has not been told to stop. *)
Definition open_task (s : con) (p : addr) (t : nat) : Prop := exists x, nth_error (c_tasks s) t = Some x /\ t_peer x = p /\ t_open x = true.

Section Props.
Variable sha1 : bytes -> ID.
Variable checked : bool.
Notation step := (con_step sha1 checked).
Notation run := (con_run sha1 checked).

Lemma run_snoc : forall h s e s' tr, run s (h ++ [e]) = Some (s', tr) -> exists m tr' o, run s h = Some (m, tr') /\ step m e = Some (s', o).
Proof.
  induction h as [|e0 h IH]; intros s e s' tr H; cbn [app] in H.
  - apply run_cons in H. destruct H as (s1 & o & tr1 & S & R & _). cbn in R. injection R as <- _. exists s, [], o. auto.
  - apply run_cons in H. destruct H as (s1 & o & tr1 & S & R & _). cbn [fst] in R. destruct (IH _ _ _ _ R) as (m & tr' & o' & A & B). exists m, ((e0, o) :: tr'), o'. split; [|exact B]. cbn [con_run]. rewrite S, A. reflexivity.
Qed.

(** A turn in which a task dies leaves the shared set poisoned. *)
Lemma turn_dies : forall poisoned now q d e po, pp_owner q = None -> dl_blocks d = [] -> dl_turn sha1 checked poisoned now q d e = Died po -> poisoned || po = true.
Proof.
  intros poisoned now q d e po O B H. unfold dl_turn in H.
  assert (W : wants_lock q d e = None). { destruct e as [b| |]; cbn [wants_lock]; auto. destruct (negb _); auto. destruct (dmget _ _); auto. rewrite B. reflexivity. }
  rewrite W in H.
  assert (HD : exists d1, dl_handle sha1 checked q d e = Val (q, d1, [])). { destruct e as [b|h i|i]; cbn [dl_handle]; eauto. unfold dl_block. destruct (negb _); eauto. destruct (dmget _ _); eauto. rewrite B. cbn. eauto. }
  destruct HD as (d1 & HD). rewrite HD in H. destruct (_ =? 0); [|discriminate]. destruct poisoned; [reflexivity|]. destruct (pp_take _ _ _ _ _) as [[[? ?] ?]| |]; try discriminate; injection H as <-; reflexivity.
Qed.

(** The map of the handle lists the open tasks. *)
Definition book (s : con) : Prop := NoDup (keys (c_map s)) /\ forall p t, omget p (c_map s) = Some t <-> open_task s p t.
(** What a step can do to a task. *)
Definition later (s s' : con) (e : ev) (t : nat) (x' : task) : Prop :=
  (exists x, nth_error (c_tasks s) t = Some x /\ t_peer x' = t_peer x /\
     (t_open x' = t_open x \/ (e = Disconnect (t_peer x) /\ omget (t_peer x) (c_map s) = Some t /\ t_open x' = false)) /\
     (t_con x' = t_con x \/ (e = ConEnd t /\ t_con x' = false)) /\
     (t_dl x' = None -> t_dl x = None \/ t_open x' = false \/ t_con x' = false \/ c_poisoned s' = true)) \/
  (exists p, e = Connect p /\ omget p (c_map s) = None /\ t = length (c_tasks s) /\ x' = task_new p).
Lemma step_later : forall s e s' o, quiet s -> book s -> step s e = Some (s', o) -> forall t x', nth_error (c_tasks s') t = Some x' -> later s s' e t x'.
Proof.
  intros s e s' o Q (_ & BK) H.
  assert (SAME : forall s1, c_tasks s1 = c_tasks s -> forall t x', nth_error (c_tasks s1) t = Some x' -> later s s1 e t x').
  { intros s1 E t x' N. rewrite E in N. left. exists x'. auto 8. }
  assert (UPD : forall s1 n x y, nth_error (c_tasks s) n = Some x -> c_tasks s1 = upd (c_tasks s) n y -> t_peer y = t_peer x ->
      (t_open y = t_open x \/ (e = Disconnect (t_peer x) /\ omget (t_peer x) (c_map s) = Some n /\ t_open y = false)) ->
      (t_con y = t_con x \/ (e = ConEnd n /\ t_con y = false)) -> (t_dl y = None -> t_dl x = None \/ t_open y = false \/ t_con y = false \/ c_poisoned s1 = true) ->
      forall t x', nth_error (c_tasks s1) t = Some x' -> later s s1 e t x').
  { intros s1 n x y N E P A B C t x' T. rewrite E in T. destruct (Nat.eq_dec t n) as [->|NE].
    - rewrite nth_error_upd_same in T by (apply nth_error_Some; congruence). injection T as <-. left. exists x. auto 8.
    - rewrite nth_error_upd_other in T by auto. left. exists x'. auto 8. }
  destruct e as [p|p|p c|p i h| |p m|t b|t|t oc now|t]; cbn [con_step] in H.
  - destruct (c_main s); try discriminate. destruct (omget p (c_map s)) eqn:G; injection H as <- <-; [apply SAME; reflexivity|].
    intros t x' N. cbn [c_tasks] in N. destruct (Nat.lt_ge_cases t (length (c_tasks s))) as [L|L].
    + rewrite nth_error_app1 in N by exact L. left. exists x'. auto 8.
    + rewrite nth_error_app2 in N by exact L. destruct (t - length (c_tasks s)) as [|k] eqn:D; [|destruct k; discriminate]. injection N as <-. right. exists p. split; [reflexivity|]. split; [exact G|]. split; [lia|reflexivity].
  - destruct (c_main s); try discriminate. destruct (omget p (c_map s)) as [n|] eqn:G; [|injection H as <- <-; apply SAME; reflexivity].
    destruct (nth_error (c_tasks s) n) as [x|] eqn:N; [|discriminate]. injection H as <- <-. intros t x' T. cbn [c_tasks] in T. destruct (Nat.eq_dec t n) as [->|NE].
    + rewrite nth_error_upd_same in T by (apply nth_error_Some; congruence). injection T as <-. left. exists x. split; [exact N|]. split; [reflexivity|]. split; [|split; [left; reflexivity|cbn; auto]].
      destruct (proj1 (BK p n) G) as (x0 & N0 & <- & _). rewrite N in N0. injection N0 as <-. right. auto.
    + rewrite nth_error_upd_other in T by auto. left. exists x'. auto 8.
  - destruct (c_main s); try discriminate. destruct (omget p (c_map s)) as [n|]; [|injection H as <- <-; apply SAME; reflexivity]. destruct (nth_error (c_tasks s) n) as [x|] eqn:N; [|discriminate]. injection H as <- <-. eapply UPD; [exact N|reflexivity| | | |]; auto.
  - destruct (c_main s); try discriminate. destruct (omget p (c_map s)) as [n|]; [|injection H as <- <-; apply SAME; reflexivity]. destruct (nth_error (c_tasks s) n) as [x|] eqn:N; [|discriminate].
    destruct (t_dl x) eqn:D; [|injection H as <- <-; apply SAME; reflexivity]. destruct (_ <=? _); [discriminate|]. injection H as <- <-. eapply UPD; [exact N|reflexivity| | | |]; auto. discriminate.
  - destruct (c_main s) as [|i|]; try discriminate. destruct (c_poisoned s); [injection H as <- <-; apply SAME; reflexivity|]. destruct (pp_add_piece (c_pp s) i) as [q| |]; injection H as <- <-; apply SAME; reflexivity.
  - destruct (c_main s); try discriminate. destruct (negb _); [discriminate|]. destruct (omget p (c_map s)) as [n|]; [|injection H as <- <-; apply SAME; reflexivity]. destruct (nth_error (c_tasks s) n) as [x|]; [|discriminate]. injection H as <- <-. apply SAME; reflexivity.
  - destruct (nth_error (c_tasks s) t) as [x|] eqn:N; [|discriminate]. destruct (_ && _); [|discriminate]. injection H as <- <-. eapply UPD; [exact N|reflexivity| | | |]; auto.
  - destruct (nth_error (c_tasks s) t) as [x|] eqn:N; [|discriminate]. injection H as <- <-. eapply UPD; [exact N|reflexivity| | | |]; auto.
  - destruct (nth_error (c_tasks s) t) as [x|] eqn:N; [|discriminate]. destruct (t_dl x) as [d|] eqn:D; [|discriminate]. pose proof (q_tasks Q x (nth_error_In _ _ N) D) as B0.
    assert (K : forall y e', t_peer y = t_peer x -> t_open y = t_open x -> t_con y = t_con x -> Some (after_turn s t y (dl_turn sha1 checked (c_poisoned s) now (c_pp s) d e')) = Some (s', o) ->
      forall t0 x', nth_error (c_tasks s') t0 = Some x' -> later s s' (Turn t oc now) t0 x').
    { intros y e' E1 E2 E3 H2. destruct (dl_turn _ _ _ _ _ _ _) as [q' d' fin reqs|po] eqn:DT; cbn [after_turn] in H2; injection H2 as <- <-; eapply UPD; [exact N|reflexivity| | | | |exact N|reflexivity| | | |]; cbn; auto; [discriminate|].
      intros _. right. right. right. eapply turn_dies; [apply (q_owner Q)|exact B0|exact DT]. }
    destruct oc; [destruct (t_cmds x) as [|c cs]|destruct (t_blocks x) as [|b bs]]; try discriminate; (eapply K; [| | |exact H]; reflexivity).
  - destruct (nth_error (c_tasks s) t) as [x|] eqn:N; [|discriminate]. destruct (t_dl x) as [d|] eqn:D; [|discriminate]. destruct (_ || _) eqn:C; [|discriminate]. injection H as <- <-. eapply UPD; [exact N|reflexivity| | | |]; cbn; auto.
    intros _. apply orb_true_iff in C. destruct C as [C|C]; [apply negb_true_iff in C; auto|]. apply andb_true_iff in C. destruct C as (C & _). apply negb_true_iff in C. auto.
Qed.

Lemma book_step : forall s e s' o, quiet s -> book s -> step s e = Some (s', o) -> book s' /\ (forall p, omget p (c_map s') <> None <-> match e with
    | Connect q => q = p \/ omget p (c_map s) <> None | Disconnect q => q <> p /\ omget p (c_map s) <> None | _ => omget p (c_map s) <> None end).
Proof.
  intros s e s' o Q BK H. pose proof (@step_later _ _ _ _ Q BK H) as LT. destruct BK as (ND & BK).
  assert (KEEP : c_map s' = c_map s -> (forall p, e <> Connect p) -> (forall p, e <> Disconnect p) -> length (c_tasks s') = length (c_tasks s) -> book s').
  { intros E N1 N2 L. split; [rewrite E; exact ND|]. intros p t. rewrite E, BK. split; intros (x & N & P & O).
    - destruct (nth_error (c_tasks s') t) as [x'|] eqn:N'; [|apply nth_error_None in N'; assert (t < length (c_tasks s)) by (apply nth_error_Some; congruence); lia].
      destruct (LT t x' N') as [(x0 & N0 & P0 & [O0|(E0 & _)] & _)|(q & E0 & _)]; [|destruct (N2 _ E0)|destruct (N1 _ E0)]. rewrite N in N0. injection N0 as <-. exists x'. split; [exact N'|]. split; congruence.
    - destruct (LT t x N) as [(x0 & N0 & P0 & [O0|(E0 & _)] & _)|(q & E0 & _)]; [|destruct (N2 _ E0)|destruct (N1 _ E0)]. exists x0. split; [exact N0|]. split; congruence. }
  assert (MAP : (forall p, e <> Connect p) -> (forall p, e <> Disconnect p) -> c_map s' = c_map s /\ length (c_tasks s') = length (c_tasks s)).
  { intros N1 N2. destruct e as [p|p|p c|p i h| |p m|t b|t|t oc now|t]; cbn [con_step] in H; try (destruct (N1 p eq_refl)); try (destruct (N2 p eq_refl)).
    - destruct (c_main s); try discriminate. destruct (omget p (c_map s)) as [n|]; [|injection H as <- <-; auto]. destruct (nth_error (c_tasks s) n) as [x|]; [|discriminate]. injection H as <- <-. cbn. rewrite upd_length. auto.
    - destruct (c_main s); try discriminate. destruct (omget p (c_map s)) as [n|]; [|injection H as <- <-; auto]. destruct (nth_error (c_tasks s) n) as [x|]; [|discriminate]. destruct (t_dl x); [|injection H as <- <-; auto]. destruct (_ <=? _); [discriminate|]. injection H as <- <-. cbn. rewrite upd_length. auto.
    - destruct (c_main s) as [|i|]; try discriminate. destruct (c_poisoned s); [injection H as <- <-; auto|]. destruct (pp_add_piece (c_pp s) i) as [q| |]; injection H as <- <-; auto.
    - destruct (c_main s); try discriminate. destruct (negb _); [discriminate|]. destruct (omget p (c_map s)) as [n|]; [|injection H as <- <-; auto]. destruct (nth_error (c_tasks s) n) as [x|]; [|discriminate]. injection H as <- <-. auto.
    - destruct (nth_error (c_tasks s) t) as [x|]; [|discriminate]. destruct (_ && _); [|discriminate]. injection H as <- <-. cbn. rewrite upd_length. auto.
    - destruct (nth_error (c_tasks s) t) as [x|]; [|discriminate]. injection H as <- <-. cbn. rewrite upd_length. auto.
    - destruct (nth_error (c_tasks s) t) as [x|]; [|discriminate]. destruct (t_dl x) as [d|]; [|discriminate].
      destruct oc; [destruct (t_cmds x) as [|c cs]|destruct (t_blocks x) as [|b bs]]; try discriminate; (destruct (dl_turn _ _ _ _ _ _ _); cbn [after_turn] in H; injection H as <- <-; cbn; rewrite upd_length; auto).
    - destruct (nth_error (c_tasks s) t) as [x|]; [|discriminate]. destruct (t_dl x) as [d|]; [|discriminate]. destruct (_ || _); [|discriminate]. injection H as <- <-. cbn. rewrite upd_length. auto. }
  destruct e as [p|p|p c|p i h| |p m|t b|t|t oc now|t]; try (destruct MAP as (M & L); [discriminate|discriminate|]; split; [apply KEEP; auto; discriminate|intro q; rewrite M; tauto]).
  - clear KEEP MAP. cbn [con_step] in H. destruct (c_main s); try discriminate. destruct (omget p (c_map s)) as [n|] eqn:G; injection H as <- <-.
    + split; [split; auto|]. intro q. split; [auto|]. intros [<-|X]; congruence.
    + assert (GS : forall q, omget q (omset p (length (c_tasks s)) (c_map s)) = if addr_eqb p q then Some (length (c_tasks s)) else omget q (c_map s)).
      { intro q. destruct (addr_eqb p q) eqn:E; [apply addr_eqb_spec in E; subst q; apply (mget_mset_same addr_eqb addr_eqb_spec)|]. apply (mget_mset_other addr_eqb addr_eqb_spec). intros ->. rewrite (proj2 (addr_eqb_spec p p) eq_refl) in E. discriminate. }
      split; [split; [apply (NoDup_mset addr_eqb addr_eqb_spec); exact ND|]|].
      * intros q t. cbn [c_map c_tasks]. rewrite GS. unfold open_task. cbn [c_tasks]. destruct (addr_eqb p q) eqn:E.
        -- apply addr_eqb_spec in E. subst q. split.
           ++ intro X. injection X as <-. exists (task_new p). rewrite nth_error_app2, Nat.sub_diag by lia. auto.
           ++ intros (x & N & P & O). destruct (Nat.lt_ge_cases t (length (c_tasks s))) as [L|L].
              ** rewrite nth_error_app1 in N by exact L. assert (X : omget p (c_map s) = Some t) by (apply BK; exists x; auto). congruence.
              ** rewrite nth_error_app2 in N by exact L. destruct (t - length (c_tasks s)) as [|k] eqn:D; [|destruct k; discriminate]. f_equal. lia.
        -- rewrite BK. split; intros (x & N & P & O).
           ++ exists x. rewrite nth_error_app1 by (apply nth_error_Some; congruence). auto.
           ++ destruct (Nat.lt_ge_cases t (length (c_tasks s))) as [L|L]; [rewrite nth_error_app1 in N by exact L; exists x; auto|].
              rewrite nth_error_app2 in N by exact L. destruct (t - length (c_tasks s)) as [|k] eqn:D; [|destruct k; discriminate]. injection N as <-. cbn in P. subst q. rewrite (proj2 (addr_eqb_spec p p) eq_refl) in E. discriminate.
      * intro q. cbn [c_map]. rewrite GS. destruct (addr_eqb p q) eqn:E; [apply addr_eqb_spec in E; subst q; split; [auto|discriminate]|]. split; [auto|]. intros [<-|X]; [rewrite (proj2 (addr_eqb_spec p p) eq_refl) in E; discriminate|exact X].
  - clear KEEP MAP. cbn [con_step] in H. destruct (c_main s); try discriminate. destruct (omget p (c_map s)) as [n|] eqn:G.
    + destruct (nth_error (c_tasks s) n) as [x|] eqn:N; [|discriminate]. injection H as <- <-.
      assert (GS : forall q, omget q (omdel p (c_map s)) = if addr_eqb p q then None else omget q (c_map s)).
      { intro q. destruct (addr_eqb p q) eqn:E; [apply addr_eqb_spec in E; subst q; apply (mget_mdel_same addr_eqb addr_eqb_spec); exact ND|]. apply (mget_mdel_other addr_eqb addr_eqb_spec). intros ->. rewrite (proj2 (addr_eqb_spec p p) eq_refl) in E. discriminate. }
      destruct (proj1 (BK p n) G) as (x0 & N0 & P0 & O0). rewrite N in N0. injection N0 as <-.
      split; [split; [apply (NoDup_mdel addr_eqb); exact ND|]|].
      * intros q t. cbn [c_map c_tasks]. rewrite GS. unfold open_task. cbn [c_tasks]. destruct (addr_eqb p q) eqn:E.
        -- apply addr_eqb_spec in E. subst q. split; [discriminate|]. intros (y & NY & P & O). destruct (Nat.eq_dec t n) as [->|NE].
           ++ rewrite nth_error_upd_same in NY by (apply nth_error_Some; congruence). injection NY as <-. discriminate.
           ++ rewrite nth_error_upd_other in NY by auto. assert (X : omget p (c_map s) = Some t) by (apply BK; exists y; auto). congruence.
        -- rewrite BK. split; intros (y & NY & P & O).
           ++ exists y. destruct (Nat.eq_dec t n) as [->|NE]; [rewrite N in NY; injection NY as <-; subst q; rewrite P0, (proj2 (addr_eqb_spec p p) eq_refl) in E; discriminate|]. rewrite nth_error_upd_other by auto. auto.
           ++ destruct (Nat.eq_dec t n) as [->|NE]; [rewrite nth_error_upd_same in NY by (apply nth_error_Some; congruence); injection NY as <-; discriminate|]. rewrite nth_error_upd_other in NY by auto. exists y. auto.
      * intro q. cbn [c_map]. rewrite GS. destruct (addr_eqb p q) eqn:E; [apply addr_eqb_spec in E; subst q; split; [congruence|intros (X & _); congruence]|]. split; [|tauto]. intro X. split; [|exact X]. intros ->. rewrite (proj2 (addr_eqb_spec q q) eq_refl) in E. discriminate.
    + injection H as <- <-. split; [split; auto|]. intro q. split; [|tauto]. intro X. split; [|exact X]. intros ->. congruence.
Qed.
Lemma poison_stays : forall s e s' o, step s e = Some (s', o) -> c_poisoned s = true -> c_poisoned s' = true.
Proof. intros s e s' o H P. apply (@C87_poison_spreads sha1 checked _ _ _ _ H). exact P. Qed.

(** The manager had connected task [t] to [p] and then disconnected [p]. *)
Definition dismissed (s0 : con) (h : list ev) (p : addr) (t : nat) : Prop :=
  exists a b m tr, h = a ++ Disconnect p :: b /\ run s0 a = Some (m, tr) /\ open_task m p t.
Definition told_why (s0 : con) (h : list ev) (s : con) : Prop :=
  forall t x, nth_error (c_tasks s) t = Some x ->
    (t_open x = false -> dismissed s0 h (t_peer x) t) /\ (t_con x = false -> In (ConEnd t) h) /\
    (t_dl x = None -> t_open x = false \/ t_con x = false \/ c_poisoned s = true).
Lemma dismissed_app : forall s0 h p t e, dismissed s0 h p t -> dismissed s0 (h ++ [e]) p t.
Proof. intros s0 h p t e (a & b & m & tr & -> & R & O). exists a, (b ++ [e]), m, tr. split; [rewrite <- app_assoc; reflexivity|auto]. Qed.
Lemma all_run : forall pl s0 h s tr, con_new pl = Val s0 -> run s0 h = Some (s, tr) -> book s /\ told_why s0 h s /\ forall p, omget p (c_map s) <> None <-> linked p h = true.
Proof.
  intros pl s0 h. induction h as [|e h IH] using rev_ind; intros s tr N R.
  - cbn in R. injection R as <- _. unfold con_new in N. destruct (pp_new pl) as [q| |]; try discriminate. injection N as <-. split; [|split].
    + split; [constructor|]. intros p t. split; [discriminate|]. intros (x & X & _). destruct t; discriminate.
    + intros t x X. destruct t; discriminate.
    + intro p. cbn. split; [congruence|discriminate].
  - destruct (@run_snoc _ _ _ _ _ R) as (m & tr' & o & R' & S). destruct (IH _ _ N R') as (BK & TW & LK). pose proof (@run_quiet _ _ _ _ _ _ _ N R') as Q.
    destruct (@book_step _ _ _ _ Q BK S) as (BK' & MP). split; [exact BK'|]. split.
    + intros t x' NX. destruct (@step_later _ _ _ _ Q BK S t x' NX) as [(x & NY & P & O & C & D)|(p & -> & _ & _ & ->)]; [|split; [|split]; cbn; discriminate].
      destruct (TW t x NY) as (T1 & T2 & T3). rewrite P. split; [|split].
      * intro X. destruct O as [O|(-> & G & _)]; [apply dismissed_app; apply T1; congruence|]. exists h, [], m, tr'. split; [reflexivity|]. split; [exact R'|]. apply BK. exact G.
      * intro X. apply in_or_app. destruct C as [C|(-> & _)]; [left; apply T2; congruence|right; left; reflexivity].
      * intro X. destruct (D X) as [X0|X0]; [|exact X0]. destruct (T3 X0) as [Y|[Y|Y]].
        -- left. destruct O as [O|(_ & _ & O)]; congruence.
        -- right. left. destruct C as [C|(_ & C)]; congruence.
        -- right. right. eapply poison_stays; eauto.
    + intro p. rewrite MP. unfold linked. rewrite fold_left_app. cbn [fold_left]. fold (linked p h). destruct e as [q|q|q c|q i hh| |q mm|t b|t|t oc now|t]; try apply LK.
      * destruct (addr_eqb q p) eqn:E; [apply addr_eqb_spec in E; tauto|]. rewrite <- LK. split; [|auto]. intros [->|X]; [rewrite (proj2 (addr_eqb_spec p p) eq_refl) in E; discriminate|exact X].
      * destruct (addr_eqb q p) eqn:E; [apply addr_eqb_spec in E; subst q; split; [intros (X & _); congruence|discriminate]|]. rewrite <- LK. split; [tauto|]. intro X. split; [|exact X]. intros ->. rewrite (proj2 (addr_eqb_spec p p) eq_refl) in E. discriminate.
Qed.

(** ** C139 *)
(** Whatever happened: a peer has an open task exactly if the manager's last word
    about it was to connect, and then it has one only. *)
Theorem C139_open : forall pl s0 h s tr p, con_new pl = Val s0 -> run s0 h = Some (s, tr) ->
  ((exists t, open_task s p t) <-> linked p h = true) /\ forall t t', open_task s p t -> open_task s p t' -> t = t'.
Proof.
  intros pl s0 h s tr p N R. destruct (@all_run _ _ _ _ _ N R) as ((_ & BK) & _ & LK). split.
  - rewrite <- LK. split; [intros (t & T); apply BK in T; congruence|]. intro X. destruct (omget p (c_map s)) as [t|] eqn:G; [|congruence]. exists t. apply BK. exact G.
  - intros t t' A B. apply BK in A, B. congruence.
Qed.
(** A download task has ended only if its connection ended, the manager
    disconnected its peer while it was the peer's task, or a task panicked with
    the shared set locked. *)
Theorem C139_reasons : forall pl s0 h s tr t x, con_new pl = Val s0 -> run s0 h = Some (s, tr) -> nth_error (c_tasks s) t = Some x -> t_dl x = None ->
  In (ConEnd t) h \/ dismissed s0 h (t_peer x) t \/ c_poisoned s = true.
Proof.
  intros pl s0 h s tr t x N R NX D. destruct (@all_run _ _ _ _ _ N R) as (_ & TW & _). destruct (TW t x NX) as (T1 & T2 & T3). destruct (T3 D) as [X|[X|X]]; auto.
Qed.
Lemma grows : forall s e s' o, step s e = Some (s', o) -> length (c_tasks s) <= length (c_tasks s').
Proof.
  intros s e s' o H. destruct e as [p|p|p c|p i h| |p m|t b|t|t oc now|t]; cbn [con_step] in H.
  - destruct (c_main s); try discriminate. destruct (omget p (c_map s)); injection H as <- <-; cbn; rewrite ?app_length; lia.
  - destruct (c_main s); try discriminate. destruct (omget p (c_map s)) as [n|]; [destruct (nth_error (c_tasks s) n); [|discriminate]|]; injection H as <- <-; cbn; rewrite ?upd_length; lia.
  - destruct (c_main s); try discriminate. destruct (omget p (c_map s)) as [n|]; [destruct (nth_error (c_tasks s) n); [|discriminate]|]; injection H as <- <-; cbn; rewrite ?upd_length; lia.
  - destruct (c_main s); try discriminate. destruct (omget p (c_map s)) as [n|]; [destruct (nth_error (c_tasks s) n) as [x|]; [destruct (t_dl x); [destruct (_ <=? _); [discriminate|]|]|discriminate]|]; injection H as <- <-; cbn; rewrite ?upd_length; lia.
  - destruct (c_main s) as [|i|]; try discriminate. destruct (c_poisoned s); [injection H as <- <-; auto|]. destruct (pp_add_piece (c_pp s) i) as [q| |]; injection H as <- <-; auto.
  - destruct (c_main s); try discriminate. destruct (negb _); [discriminate|]. destruct (omget p (c_map s)) as [n|]; [destruct (nth_error (c_tasks s) n); [|discriminate]|]; injection H as <- <-; auto.
  - destruct (nth_error (c_tasks s) t) as [x|]; [|discriminate]. destruct (_ && _); [|discriminate]. injection H as <- <-. cbn. rewrite upd_length. auto.
  - destruct (nth_error (c_tasks s) t) as [x|]; [|discriminate]. injection H as <- <-. cbn. rewrite upd_length. auto.
  - destruct (nth_error (c_tasks s) t) as [x|]; [|discriminate]. destruct (t_dl x) as [d|]; [|discriminate].
    destruct oc; [destruct (t_cmds x) as [|c cs]|destruct (t_blocks x) as [|b bs]]; try discriminate; (destruct (dl_turn _ _ _ _ _ _ _); cbn [after_turn] in H; injection H as <- <-; cbn; rewrite upd_length; auto).
  - destruct (nth_error (c_tasks s) t) as [x|]; [|discriminate]. destruct (t_dl x) as [d|]; [|discriminate]. destruct (_ || _); [|discriminate]. injection H as <- <-. cbn. rewrite upd_length. auto.
Qed.
Lemma stays_closed : forall pl s0 h s tr p t, con_new pl = Val s0 -> run s0 h = Some (s, tr) -> dismissed s0 h p t -> exists x, nth_error (c_tasks s) t = Some x /\ t_open x = false.
Proof.
  intros pl s0 h. induction h as [|e h IH] using rev_ind; intros s tr p t N R (a & b & m & tr' & E & RA & OT); [destruct a; discriminate|].
  destruct (@run_snoc _ _ _ _ _ R) as (m1 & tr1 & o & R1 & S). destruct b as [|e' b] using rev_ind.
  - apply app_inj_tail in E. destruct E as (-> & ->). rewrite RA in R1. injection R1 as <- <-. destruct (@all_run _ _ _ _ _ N RA) as ((_ & BK) & _ & _). apply BK in OT. cbn [con_step] in S. destruct (c_main m); try discriminate. rewrite OT in S.
    destruct (nth_error (c_tasks m) t) as [y|] eqn:NY; [|discriminate]. injection S as <- <-. cbn [c_tasks]. rewrite nth_error_upd_same by (apply nth_error_Some; congruence). eexists. split; reflexivity.
  - clear IHb. change (a ++ Disconnect p :: b ++ [e']) with (a ++ (Disconnect p :: b) ++ [e']) in E. rewrite app_assoc in E. apply app_inj_tail in E. destruct E as (-> & <-).
    destruct (IH m1 tr1 p t N R1) as (x & NX & O); [exists a, b, m, tr'; auto|]. pose proof (@grows _ _ _ _ S) as G. assert (L : t < length (c_tasks m1)) by (apply nth_error_Some; congruence).
    destruct (nth_error (c_tasks s) t) as [x'|] eqn:NX'; [|apply nth_error_None in NX'; lia]. exists x'. split; [reflexivity|].
    destruct (@all_run _ _ _ _ _ N R1) as (BK & _ & _). destruct (@step_later _ _ _ _ (@run_quiet _ _ _ _ _ _ _ N R1) BK S t x' NX') as [(x0 & N0 & _ & O' & _)|(q & _ & _ & L' & _)]; [|lia].
    rewrite NX in N0. injection N0 as <-. destruct O' as [O'|(_ & _ & O')]; congruence.
Qed.
(** Disconnecting ends it: from then on the task can end at any moment, and what
    the manager sends to a peer no longer goes there. *)
Theorem C139_disconnect : forall pl s0 h s tr p t x, con_new pl = Val s0 -> run s0 h = Some (s, tr) -> dismissed s0 h p t -> nth_error (c_tasks s) t = Some x ->
  (t_dl x <> None -> exists s' x', step s (End_ t) = Some (s', []) /\ nth_error (c_tasks s') t = Some x' /\ t_dl x' = None) /\
  forall q m s' o y, step s (SendMsg q m) = Some (s', o) -> In y o -> fst y <> t.
Proof.
  intros pl s0 h s tr p t x N R DM NX. destruct (@stays_closed _ _ _ _ _ _ _ N R DM) as (x0 & N0 & CL). rewrite NX in N0. injection N0 as <-. destruct (@all_run _ _ _ _ _ N R) as ((_ & BK) & _ & _). split.
  - intro D. cbn [con_step]. rewrite NX. destruct (t_dl x) as [d|]; [|congruence]. rewrite CL. cbn [negb orb]. eexists _, _. split; [reflexivity|]. cbn [with_task c_tasks]. rewrite nth_error_upd_same by (apply nth_error_Some; congruence). split; reflexivity.
  - intros q m s' o y S I. cbn [con_step] in S. destruct (c_main s); try discriminate. destruct (negb _); [discriminate|]. destruct (omget q (c_map s)) as [n|] eqn:G; [|injection S as <- <-; destruct I].
    destruct (nth_error (c_tasks s) n) as [z|] eqn:NZ; [|discriminate]. injection S as <- <-. destruct (t_con z); [|destruct I]. destruct I as [<-|[]]. cbn [fst]. intros ->. apply BK in G. destruct G as (w & NW & _ & O). congruence.
Qed.
(** What the manager sends to a connected peer goes to the peer's open task, if
    its connection lives, and nowhere else. *)
Theorem C139_sent : forall pl s0 h s tr p t x m s' o, con_new pl = Val s0 -> run s0 h = Some (s, tr) -> open_task s p t -> nth_error (c_tasks s) t = Some x ->
  step s (SendMsg p m) = Some (s', o) -> o = if t_con x then [(t, ToPeer m)] else [].
Proof.
  intros pl s0 h s tr p t x m s' o N R OT NX S. destruct (@all_run _ _ _ _ _ N R) as ((_ & BK) & _ & _). apply BK in OT. cbn [con_step] in S. destruct (c_main s); try discriminate. destruct (negb _); [discriminate|]. rewrite OT, NX in S. injection S as _ <-. reflexivity.
Qed.
End Props.

(** A peer is connected, disconnected and connected again; the first task ends. *)
Definition ex_again : list ev := [Connect ex_p; Disconnect ex_p; Connect ex_p; End_ 0; SendMsg ex_p Interested].
Example C139_example : forall sha1 checked, exists s0 s tr x, con_new 5 = Val s0 /\ con_run sha1 checked s0 ex_again = Some (s, tr) /\ linked ex_p ex_again = true /\ open_task s ex_p 1 /\
  nth_error (c_tasks s) 0 = Some x /\ t_dl x = None /\ dismissed sha1 checked s0 ex_again ex_p 0 /\ In (SendMsg ex_p Interested, [(1, ToPeer Interested)]) tr.
Proof.
  intros sha1 checked. unfold con_new. destruct (pp_new 5) as [q| |] eqn:E; [|vm_compute in E; discriminate|vm_compute in E; discriminate]. cbn [rmap]. eexists _, _, _, _. split; [reflexivity|]. split; [reflexivity|]. split; [reflexivity|].
  split; [eexists; split; [reflexivity|split; reflexivity]|]. split; [reflexivity|]. split; [reflexivity|]. split.
  - exists [Connect ex_p], [Connect ex_p; End_ 0; SendMsg ex_p Interested]. eexists _, _. split; [reflexivity|]. split; [reflexivity|]. eexists. split; [reflexivity|split; reflexivity].
  - cbn. auto 8.
Qed.

Print Assumptions C139_open.
Print Assumptions C139_reasons.
Print Assumptions C139_disconnect.
Print Assumptions C139_sent.
