(** C26: the status of a peer is what its history says, and a batch holds exactly
    the peers that are not in use. *)
From Coq Require Import List NArith ZArith Lia Bool Arith Permutation.
From Coq Require Import Init.Byte.
From Verif Require Import Base Assoc IdModel WireModel PeersModel PeersSpec PeersProofs PeersProps.
Import ListNotations.
Set Implicit Arguments.

(** ** What a history says about one peer *)
Definition among (p : addr) (l : list addr) : bool := existsb (addr_eqb p) l.
Definition afterwards (p : addr) (st : option status) (x : qop * list addr) : option status :=
  match fst x with
  | QInsert q => if addr_eqb q p then Some Unknown else st
  | QExtend ps => if among p ps then Some Unknown else st
  | QBatch bad _ => if among p (snd x) then Some Active else match last_returned bad p with Some s => Some s | None => st end
  | QGood _ => if among p (snd x) then Some Active else st
  | QEnough _ => match st with Some UnableToConnect => Some UnableToConnect | Some _ => Some Active | None => None end
  end.
Definition record (p : addr) (h : list (qop * list addr)) : option status := fold_left (afterwards p) h None.
(** How many names a history mentions; the table is never larger. *)
Definition mentions (h : list (qop * list addr)) : list addr := flat_map (fun x => names (fst x)) h.
(** Asking "enough?" looks at all peers: fewer than [usize::MAX]. *)
Definition small (k : nat) (h : list (qop * list addr)) : Prop := forall u out, In (QEnough u, out) h -> k + length (mentions h) < u.

Lemma among_in : forall p l, among p l = true <-> In p l.
Proof.
  intros p l. unfold among. rewrite existsb_exists. split.
  - intros (x & I & E). apply addr_eqb_spec in E. subst. exact I.
  - intro I. exists p. split; [exact I|]. apply addr_eqb_spec. reflexivity.
Qed.
Definition agrees (m : peers) (f : addr -> option status) : Prop := forall p st, status_of m p st <-> f p = Some st.
Lemma step_agrees : forall m o m' out f, NoDup (map fst m) -> agrees m f -> q_step m o = Val (m', out) ->
  (forall u, o = QEnough u -> length m < u) -> agrees m' (fun p => afterwards p (f p) (o, out)).
Proof.
  intros m o m' out f N A E U p st. unfold afterwards. destruct o as [q|ps|bad l|l|u]; cbn [fst snd q_step] in *.
  - injection E as <- <-. unfold q_insert. destruct (addr_eqb q p) eqn:Q.
    + apply addr_eqb_spec in Q. subst q. rewrite status_get by (apply NoDup_qset; auto). unfold qget, qset. rewrite (mget_mset_same _ addr_eqb_spec). tauto.
    + rewrite qset_status_other; auto. intros ->. assert (addr_eqb q q = true) by (apply addr_eqb_spec; auto). congruence.
  - destruct (@C25_learnt_available m ps N) as (m2 & E2 & S). cbn [q_step] in E2. assert (m2 = m') by congruence. subst m2. destruct (S p st) as (S1 & S2).
    destruct (among p ps) eqn:Q.
    + apply among_in in Q. rewrite (S1 Q). split; congruence.
    + rewrite S2; [apply A|]. intro I. apply among_in in I. congruence.
  - destruct (@return_keys bad m N) as (N1 & _). unfold q_batch in E. destruct (@batch_spec l _ N1) as (m2 & o2 & E2 & G). rewrite E in E2. injection E2 as <- <-.
    pose proof (gb_same_peers G) as K. destruct (among p out) eqn:Q.
    + apply among_in in Q. split; [|intro X; injection X as <-; apply (gb_marked G); exact Q]. intro S. f_equal.
      eapply (@status_fun m' p); [rewrite K; exact N1|apply (gb_marked G); exact Q|exact S].
    + rewrite (gb_frame G) by (intro I; apply among_in in I; congruence). rewrite return_status by exact N. destruct (last_returned bad p); [split; congruence|apply A].
  - unfold q_good in E. destruct (@good_spec l _ N) as (m2 & o2 & E2 & G). rewrite E2 in E. cbn [rmap fst snd] in E.
    assert (EM : m' = m2) by (destruct o2; congruence). assert (EO : out = o2) by (destruct o2; congruence). subst m' out.
    pose proof (gb_same_peers G) as K. destruct (among p o2) eqn:Q.
    + apply among_in in Q. split; [|intro X; injection X as <-; apply (gb_marked G); exact Q]. intro S. f_equal.
      eapply (@status_fun m2 p); [rewrite K; exact N|apply (gb_marked G); exact Q|exact S].
    + rewrite (gb_frame G) by (intro I; apply among_in in I; congruence). apply A.
  - destruct (q_enough u m) as [[m2 b]| |] eqn:Q; try discriminate E. cbn [rmap fst] in E. injection E as <- <-.
    destruct (@C28_marks_all_always u m m2 b N (U u eq_refl) Q) as (M & _).
    destruct (@C28_enough_answer_partial u m N (U u eq_refl)) as (m3 & b3 & Q3 & _ & K & _). rewrite Q in Q3. injection Q3 as <- <-.
    assert (N2 : NoDup (map fst m2)) by (rewrite K; exact N). destruct (f p) as [s|] eqn:F.
    + apply A in F. pose proof (M _ _ F) as S. split.
      * intro S2. pose proof (@status_fun m2 p _ _ N2 S S2) as X. destruct s; congruence.
      * intro X. destruct s; injection X as <-; exact S.
    + split; [|discriminate]. intro S. exfalso. assert (I : In p (map fst m)) by (rewrite <- K; apply (in_map fst) in S; exact S).
      apply in_map_iff in I. destruct I as ([q s] & EQ & I). cbn in EQ. subst q. apply A in I. congruence.
Qed.
Lemma run_agrees : forall m h m', qrun m h m' -> forall f, NoDup (map fst m) -> agrees m f -> small (length m) h ->
  NoDup (map fst m') /\ agrees m' (fun p => fold_left (afterwards p) h (f p)).
Proof.
  intros m h m' R. induction R as [m m' P|m m1 o m2 out h m' P E R IH]; intros f N A B.
  - split; [eapply Permutation_NoDup; [apply Permutation_map; exact P|exact N]|]. intros p st. cbn. rewrite <- (A p st). unfold status_of. split; apply Permutation_in; [symmetry|]; exact P.
  - assert (N1 : NoDup (map fst m1)) by (eapply Permutation_NoDup; [apply Permutation_map; exact P|exact N]).
    assert (A1 : agrees m1 f). { intros p st. rewrite <- (A p st). unfold status_of. split; apply Permutation_in; [symmetry|]; exact P. }
    destruct (@step_keys m1 o N1) as (m3 & o3 & E3 & N2 & K). rewrite E in E3. injection E3 as <- <-.
    pose proof (Permutation_length P) as L. apply (IH (fun p => afterwards p (f p) (o, out))).
    + exact N2.
    + apply step_agrees with (m := m1); auto. intros u ->. specialize (B u out (or_introl eq_refl)). lia.
    + intros u x I. specialize (B u x (or_intror I)). unfold mentions in B. cbn [flat_map fst] in B. rewrite app_length in B. fold (mentions h) in B.
      assert (length (map fst m2) <= length (names o ++ map fst m1)).
      { apply NoDup_incl_length; [exact N2|]. intros q Q. apply K in Q. apply in_or_app. tauto. }
      rewrite app_length, !map_length in H. lia.
Qed.
(** The table holds of every peer what its history says, and nothing else. *)
Theorem C26_status_exact : forall h m, qrun [] h m -> small 0 h -> forall p st, status_of m p st <-> record p h = Some st.
Proof.
  intros h m R B. apply (@run_agrees [] h m R (fun _ => None)); [constructor| |exact B]. intros p st. split; [intros []|discriminate].
Qed.
(** A batch: nobody in use, at most [limit] others, all of them if there are no
    more; what counts is the status last given, be it with the call itself. *)
Definition free (h : list (qop * list addr)) (bad : list (addr * status)) (p : addr) : Prop :=
  exists st, st <> Active /\ match last_returned bad p with Some s => s = st | None => record p h = Some st end.
Theorem C26_exact : forall h m bad limit, qrun [] h m -> small 0 h ->
  exists m' out, q_step m (QBatch bad limit) = Val (m', out) /\ NoDup out /\ length out <= limit /\
    (forall p, In p out -> free h bad p) /\
    (length out < limit -> forall p, In p out <-> free h bad p).
Proof.
  intros h m bad limit R B. destruct (qrun_keys R) as (N & _); [constructor|]. destruct (@C25_batch m bad limit N) as (m1 & m' & out & E & N1 & S & G).
  assert (FR : forall p st r, status_of m1 p st -> batch_rank st = Some r -> free h bad p).
  { intros p st r X Y. exists st. split; [intros ->; discriminate|]. apply S in X. destruct (last_returned bad p); [congruence|]. apply (C26_status_exact R B). exact X. }
  exists m', out. split; [exact E|]. split; [apply (gb_nodup G)|]. split; [apply (gb_size G)|]. split.
  - intros p I. destruct (gb_eligible G p I) as (st & r & X & Y). eapply FR; eauto.
  - intros L p. split; [intro I; destruct (gb_eligible G p I) as (st & r & X & Y); eapply FR; eauto|]. intros (st & NA & X).
    destruct (gb_maximal G) as [M|M]; [lia|]. assert (RK : exists r, batch_rank st = Some r) by (destruct st; cbn; eauto; congruence). destruct RK as (r & RK).
    eapply M; [|exact RK]. apply S. destruct (last_returned bad p); [congruence|]. apply (C26_status_exact R B). exact X.
Qed.
(** A peer taken, named again by a tracker, and free once more; one that is not
    named stays in use; "enough?" takes the rest. *)
Example C26_exact_example : exists h m, qrun [] h m /\ small 0 h /\ free h [] (pa 1) /\ ~ free h [] (pa 2) /\ ~ free (h ++ [(QEnough 100, [])]) [] (pa 1).
Proof.
  exists [(QExtend [pa 1; pa 2], []); (QBatch [] 2, [pa 1; pa 2]); (QInsert (pa 1), [])]. eexists. split; [|split; [|split; [|split]]].
  - eapply qr_cons; [apply Permutation_refl|vm_compute; reflexivity|]. eapply qr_cons; [apply Permutation_refl|vm_compute; reflexivity|].
    eapply qr_cons; [apply Permutation_refl|vm_compute; reflexivity|]. apply qr_nil. apply Permutation_refl.
  - intros u out I. cbn in I. intuition discriminate.
  - exists Unknown. split; [discriminate|]. vm_compute. reflexivity.
  - intros (st & NA & X). vm_compute in X. congruence.
  - intros (st & NA & X). vm_compute in X. congruence.
Qed.
Print Assumptions C26_status_exact.
Print Assumptions C26_exact.
