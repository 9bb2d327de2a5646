(** C54: the session with one tracker. *)
From Coq Require Import Strings.String.
From Coq Require Import List NArith ZArith Lia Bool Arith.
From Coq Require Import Init.Byte.
From Verif Require Import Base IdModel WireModel BencodeModel KrpcModel TrackerModel TrackerSpec.
Import ListNotations.
Set Implicit Arguments.

(** ** runs, from the end *)
Inductive rrun (c : tracker_cfg) (s0 : tsession) (t0 : N) : list tentry -> tsession -> N -> Prop :=
| rr_nil : rrun c s0 t0 [] s0 t0
| rr_snoc : forall tr s now now' d e s' outs, rrun c s0 t0 tr s now -> (now <= now')%N ->
    session_step c s now' d e = Some (s', outs) -> rrun c s0 t0 (tr ++ [mk_entry now' d e outs]) s' now'.
Lemma rrun_cons : forall c s0 t0 t1 d e s1 outs tr s t, (t0 <= t1)%N -> session_step c s0 t1 d e = Some (s1, outs) ->
  rrun c s1 t1 tr s t -> rrun c s0 t0 (mk_entry t1 d e outs :: tr) s t.
Proof.
  intros c s0 t0 t1 d e s1 outs tr s t L S R. induction R as [|tr s now now' d' e' s' outs' R IH L' S'].
  - change [mk_entry t1 d e outs] with ([] ++ [mk_entry t1 d e outs]). econstructor; [constructor|exact L|exact S].
  - rewrite app_comm_cons. econstructor; eauto.
Qed.
Lemma run_rrun : forall c s0 t0 tr s, session_run c s0 t0 tr s -> exists t, rrun c s0 t0 tr s t.
Proof.
  intros c s0 t0 tr s R. induction R as [s now|s now now' d e s1 outs tr s2 L S R (t & IH)].
  - exists now. constructor.
  - exists t. eapply rrun_cons; eauto.
Qed.
Lemma rrun_split : forall c s0 t0 tr1 tr2 s t, rrun c s0 t0 (tr1 ++ tr2) s t -> exists s1 t1, rrun c s0 t0 tr1 s1 t1 /\ rrun c s1 t1 tr2 s t.
Proof.
  intros c s0 t0 tr1 tr2. induction tr2 as [|x tr2 IH] using rev_ind; intros s t R.
  - rewrite app_nil_r in R. exists s, t. split; [auto|constructor].
  - rewrite app_assoc in R. inversion R as [E|tr s' now now' d e s'' outs R' L S E]; subst.
    + destruct (tr1 ++ tr2); discriminate.
    + apply app_inj_tail in E. destruct E as (-> & <-). destruct (IH _ _ R') as (s1 & t1 & R1 & R2). exists s1, t1. split; auto. econstructor; eauto.
Qed.
Lemma rrun_first : forall c s0 t0 x tr s t, rrun c s0 t0 (x :: tr) s t ->
  exists s1, (t0 <= e_now x)%N /\ session_step c s0 (e_now x) (e_downloaded x) (e_event x) = Some (s1, e_outs x) /\ rrun c s1 (e_now x) tr s t.
Proof.
  intros c s0 t0 x tr s t R. change (x :: tr) with ([x] ++ tr) in R. apply rrun_split in R. destruct R as (s1 & t1 & R1 & R2).
  inversion R1 as [E|tr' s' now now' d e s'' outs R' L S E]; subst. destruct tr'; [|destruct tr'; discriminate].
  cbn [app] in E. injection E as <-. inversion R' as [E1|? ? ? ? ? ? ? ? ? ? ? E1]; subst; [|destruct tr0; discriminate].
  exists s1. cbn [e_now e_downloaded e_event e_outs]. auto.
Qed.

(** ** the invariant *)
Definition after_failure (tr : list tentry) (since : N) : Prop :=
  exists tr0 f mid, tr = tr0 ++ f :: mid /\ Forall (fun e => e_event e = Completion) mid /\ e_event f = Failure /\ e_now f = since.
Definition after_answer (tr : list tentry) (since iv : N) : Prop :=
  exists tr0 f mid r, tr = tr0 ++ f :: mid /\ Forall (fun e => e_event e = Completion) mid /\ e_event f = Answer r /\ e_now f = since /\ r_interval r = iv.
Definition last_request (a0 : announce) (tr : list tentry) : announce := last (requests_of tr) a0.
Definition answered (tr : list tentry) : Prop := exists e, In e tr /\ is_answer (e_event e).
Definition Inv (c : tracker_cfg) (a0 : announce) (tr : list tentry) (s : tsession) : Prop :=
  match t_phase s with
  | Asking => t_ann s = last_request a0 tr /\ (answered tr -> a_event (t_ann s) <> Some Started) /\ a_event (t_ann s) <> Some Stopped
  | Resting => t_ann s = last_request a0 tr /\ (answered tr -> a_event (t_ann s) <> Some Started) /\ a_event (t_ann s) <> Some Stopped /\ after_failure tr (t_since s)
  | Idle iv => after_answer tr (t_since s) iv
  | _ => True
  end /\
  match t_phase s with Ended | Crashed => True | _ => a_tracker_id (t_ann s) = first_id tr end /\
  about c (t_ann s) /\
  count_events is_completion tr >= t_unread s + count_events is_completion_read tr.
Lemma first_id_app : forall tr e, first_id (tr ++ [e]) = match first_id tr with Some i => Some i | None => match e_event e with Answer r => r_tracker_id r | _ => None end end.
Proof.
  induction tr as [|x tr IH]; intro e; cbn [app first_id].
  - destruct (e_event e); auto. destruct (r_tracker_id r); auto.
  - rewrite IH. destruct (e_event x); auto. destruct (r_tracker_id r); auto.
Qed.
Lemma count_app : forall p a b, count_events p (a ++ b) = count_events p a + count_events p b.
Proof. intros. unfold count_events. rewrite filter_app, app_length. reflexivity. Qed.
Lemma requests_app : forall a b, requests_of (a ++ b) = requests_of a ++ requests_of b.
Proof. intros. unfold requests_of. apply flat_map_app. Qed.
Lemma last_none : forall a0 tr e, requests (e_outs e) = [] -> last_request a0 (tr ++ [e]) = last_request a0 tr.
Proof. intros a0 tr e H. unfold last_request. rewrite requests_app. cbn [requests_of flat_map]. rewrite H, !app_nil_r. reflexivity. Qed.
Lemma last_one : forall a0 tr e a, requests (e_outs e) = [a] -> last_request a0 (tr ++ [e]) = a.
Proof. intros a0 tr e a H. unfold last_request. rewrite requests_app. cbn [requests_of flat_map]. rewrite H. cbn [app]. apply last_last. Qed.
Lemma answered_app : forall tr e, answered (tr ++ [e]) <-> answered tr \/ is_answer (e_event e).
Proof.
  intros tr e. unfold answered. split.
  - intros (x & I & A). apply in_app_or in I. destruct I as [I|[<-|[]]]; [left; exists x; auto|right; auto].
  - intros [(x & I & A)|A]; [exists x|exists e]; (split; [apply in_or_app; cbn; auto|auto]).
Qed.
Lemma after_answer_answered : forall tr t iv, after_answer tr t iv -> answered tr.
Proof. intros tr t iv (tr0 & f & mid & r & -> & _ & E & _). exists f. split; [apply in_or_app; right; left; auto|exists r; auto]. Qed.
Lemma about_event : forall c a e l, about c a -> about c (with_event a e l).
Proof. intros c a e l H. exact H. Qed.
Lemma about_id : forall c a t, about c a -> about c (with_tracker_id a t).
Proof. intros c a t H. exact H. Qed.
Lemma left_ok : forall c d l, left_bytes c d = Val l -> missing c d l.
Proof.
  intros c d l. unfold left_bytes, missing. destruct (c_pieces c <? d)%N eqn:E; [discriminate|]. apply N.ltb_ge in E.
  destruct (u64_max <? _)%N; [discriminate|]. intro H. injection H as <-. auto.
Qed.
Ltac cnt := rewrite ?count_app; rewrite ?count_app in *; cbn [t_unread crashed] in *; unfold count_events in *; cbn [filter e_event is_completion is_completion_read length] in *; lia.
Lemma inv_step : forall c a0 tr s now d e s' outs, Inv c a0 tr s -> session_step c s now d e = Some (s', outs) ->
  Inv c a0 (tr ++ [mk_entry now d e outs]) s'.
Proof.
  intros c a0 tr s now d e s' outs (P & T & A & C) S.
  assert (AGAIN : forall ev un, t_phase s <> Ended -> t_phase s <> Crashed -> ev = None \/ ev = Some Completed -> (s', outs) = announce_again c s now d un ev ->
    is_completion e = false -> (forall r, e <> Answer r) -> un + length (filter (fun x => is_completion_read x) [e]) <= t_unread s -> Inv c a0 (tr ++ [mk_entry now d e outs]) s').
  { intros ev un NE NC EV E IC NA UN. unfold announce_again in E. assert (CNT : count_events is_completion (tr ++ [mk_entry now d e outs]) >= un + count_events is_completion_read (tr ++ [mk_entry now d e outs])).
    { rewrite !count_app. unfold count_events at 2 4. cbn [filter e_event]. rewrite IC. cbn [filter] in UN. cbn [length]. destruct (is_completion_read e); cbn [length] in *; lia. }
    destruct (left_bytes c d) as [l| |]; injection E as -> ->; unfold Inv; cbn [t_phase t_ann t_unread t_since crashed].
    - split; [|split; [|split; [apply about_event; auto|exact CNT]]].
      + split; [symmetry; apply last_one; reflexivity|]. cbn [with_event a_event]. destruct EV as [-> | ->]; split; intros; discriminate.
      + cbn [with_event a_tracker_id]. rewrite first_id_app. cbn [e_event]. destruct (t_phase s); try congruence; rewrite T; destruct (first_id tr); auto; destruct e; auto; exfalso; eapply NA; reflexivity.
    - split; [exact I|]. split; [exact I|]. split; [exact A|]. lia.
    - split; [exact I|]. split; [exact I|]. split; [exact A|]. lia. }
  unfold session_step in S. destruct e as [r| | | | |], (t_phase s) as [| |iv| |] eqn:PH; try discriminate S.
  - (* answer *) injection S as <- <-. unfold Inv. cbn [t_phase t_ann t_unread t_since]. split; [|split; [|split]].
    + exists tr, (mk_entry now d (Answer r) [Found (r_peers r)]), [], r. repeat split; auto.
    + rewrite first_id_app. cbn [e_event]. destruct (a_tracker_id (t_ann s)) eqn:TI; rewrite <- T; [exact TI|]. destruct (r_tracker_id r); [reflexivity|exact TI].
    + destruct (a_tracker_id (t_ann s)); [exact A|]. destruct (r_tracker_id r); [apply about_id|]; exact A.
    + cnt.
  - (* failure *) injection S as <- <-. destruct P as (L & AN & ST). unfold Inv. cbn [t_phase t_ann t_unread t_since]. split; [|split; [|split; [exact A|cnt]]].
    + rewrite last_none by reflexivity. split; [exact L|]. split; [intro Q; apply AN; apply answered_app in Q; destruct Q as [Q|(r & Q)]; [auto|discriminate]|]. split; [exact ST|].
      exists tr, (mk_entry now d Failure []), []. repeat split; auto.
    + rewrite first_id_app, T. cbn [e_event]. destruct (first_id tr); reflexivity.
  - (* retry *) destruct (_ <=? _)%N; [|discriminate]. injection S as <- <-. destruct P as (L & AN & ST & _). unfold Inv. cbn [t_phase t_ann t_unread t_since]. split; [|split; [|split; [exact A|cnt]]].
    + split; [symmetry; apply last_one; reflexivity|]. split; [|exact ST]. intro Q. apply AN. apply answered_app in Q. destruct Q as [Q|(r & Q)]; [auto|discriminate].
    + rewrite first_id_app, T. cbn [e_event]. destruct (first_id tr); reflexivity.
  - (* interval *) destruct (_ <=? _)%N; [|discriminate]. injection S as S. eapply (AGAIN None (t_unread s)); try discriminate; auto. cbn. lia.
  - (* completion, asking *) injection S as <- <-. destruct P as (L & AN & ST). unfold Inv. cbn [t_phase t_ann t_unread t_since]. split; [|split; [|split; [exact A|cnt]]].
    + rewrite last_none by reflexivity. split; [exact L|]. split; [|exact ST]. intro Q. apply AN. apply answered_app in Q. destruct Q as [Q|(r & Q)]; [auto|discriminate].
    + rewrite first_id_app, T. cbn [e_event]. destruct (first_id tr); reflexivity.
  - (* completion, resting *) injection S as <- <-. destruct P as (L & AN & ST & (tr0 & f & mid & -> & FM & EF & NF)). unfold Inv. cbn [t_phase t_ann t_unread t_since]. split; [|split; [|split; [exact A|cnt]]].
    + rewrite last_none by reflexivity. split; [exact L|]. split; [intro Q; apply AN; apply answered_app in Q; destruct Q as [Q|(r & Q)]; [auto|discriminate]|]. split; [exact ST|].
      exists tr0, f, (mid ++ [mk_entry now d Completion []]). rewrite <- app_assoc. repeat split; auto. apply Forall_app. auto.
    + rewrite first_id_app, T. cbn [e_event]. destruct (first_id _); reflexivity.
  - (* completion, idle *) injection S as <- <-. destruct P as (tr0 & f & mid & r & -> & FM & EF & NF & IV). unfold Inv. cbn [t_phase t_ann t_unread t_since]. split; [|split; [|split; [exact A|cnt]]].
    + exists tr0, f, (mid ++ [mk_entry now d Completion []]), r. rewrite <- app_assoc. repeat split; auto. apply Forall_app. auto.
    + rewrite first_id_app, T. cbn [e_event]. destruct (first_id _); reflexivity.
  - (* completion read *) destruct (t_unread s =? 0) eqn:U; [discriminate|]. apply Nat.eqb_neq in U. destruct (COMPLETION_CAP <? t_unread s) eqn:CAP.
    + injection S as <- <-. unfold Inv. cbn [t_phase t_ann t_unread t_since]. repeat (split; [exact I||exact A|]). 
      apply Nat.ltb_lt in CAP. rewrite !count_app. unfold count_events at 2 4. cbn [filter e_event is_completion is_completion_read length]. lia.
    + injection S as S. eapply (AGAIN (Some Completed) (t_unread s - 1)); try discriminate; auto. cbn. lia.
  - (* shutdown *) injection S as <- <-. unfold Inv. cbn [t_phase t_ann t_unread t_since]. repeat (split; [exact I||exact A|]). cnt.
  - injection S as <- <-. unfold Inv. cbn [t_phase t_ann t_unread t_since]. repeat (split; [exact I||exact A|]). cnt.
  - destruct (left_bytes c d) as [l| |]; injection S as <- <-; unfold Inv; cbn [t_phase t_ann t_unread t_since crashed]; (split; [exact I|]); (split; [exact I|]);
    (split; [try apply about_event; exact A|]); cnt.
Qed.
Lemma inv_run : forall c now d s0 outs0 tr s t, open_session c now d = Val (s0, outs0) -> rrun c s0 now tr s t -> Inv c (t_ann s0) tr s.
Proof.
  intros c now d s0 outs0 tr s t O R. induction R as [|tr s n n' d' e s' outs R IH L S].
  - unfold open_session in O. destruct (left_bytes c d) as [l| |]; try discriminate. injection O as <- <-.
    unfold Inv. cbn [t_phase t_ann t_unread]. split; [|split; [reflexivity|split; [repeat split|cbn; lia]]].
    split; [reflexivity|]. split; [intros (e & [] & _)|discriminate].
  - eapply inv_step; eauto.
Qed.
Lemma step_requests : forall c s now d e s' outs a, session_step c s now d e = Some (s', outs) -> In (Get a) outs ->
  (e = Elapsed /\ t_phase s = Resting /\ a = t_ann s /\ (t_since s + 64 <= now)%N /\ outs = [Get a]) \/
  (exists iv l ev, t_phase s = Idle iv /\ left_bytes c d = Val l /\ a = with_event (t_ann s) ev l /\ outs = [Get a] /\
    ((e = Elapsed /\ ev = None /\ (t_since s + iv <= now)%N) \/ (e = CompletionRead /\ ev = Some Completed) \/ (e = Shutdown /\ ev = Some Stopped /\ t_phase s' = Ended))).
Proof.
  intros c s now d e s' outs a S I.
  assert (AG : forall un ev, (s', outs) = announce_again c s now d un ev -> exists l, left_bytes c d = Val l /\ a = with_event (t_ann s) ev l /\ outs = [Get a]).
  { intros un ev E. unfold announce_again in E. destruct (left_bytes c d) as [l| |]; injection E as -> ->; try (destruct I; fail).
    destruct I as [I|[]]. injection I as <-. exists l. auto. }
  unfold session_step in S. destruct e as [r| | | | |], (t_phase s) as [| |iv| |] eqn:PH; try discriminate S.
  - injection S as <- <-. destruct I as [I|[]]. discriminate.
  - injection S as <- <-. destruct I.
  - left. destruct (_ <=? _)%N eqn:L; [|discriminate]. injection S as <- <-. apply N.leb_le in L. destruct I as [I|[]]. injection I as <-. auto 10.
  - right. destruct (_ <=? _)%N eqn:L; [|discriminate]. injection S as S. apply N.leb_le in L. destruct (AG _ _ (eq_sym S)) as (l & E & EA & EO).
    exists iv, l, None. auto 10.
  - injection S as <- <-. destruct I.
  - injection S as <- <-. destruct I.
  - injection S as <- <-. destruct I.
  - right. destruct (t_unread s =? 0); [discriminate|]. destruct (_ <? _); [injection S as <- <-; destruct I|]. injection S as S. destruct (AG _ _ (eq_sym S)) as (l & E & EA & EO).
    exists iv, l, (Some Completed). auto 10.
  - injection S as <- <-. destruct I.
  - injection S as <- <-. destruct I.
  - right. destruct (left_bytes c d) as [l| |] eqn:E; injection S as <- <-; try (destruct I; fail). destruct I as [I|[]]. injection I as <-.
    exists iv, l, (Some Stopped). auto 10.
Qed.

Section Session.
Context (c : tracker_cfg) (now0 d0 : N) (s0 : tsession) (outs0 : list tout).
Context (OPEN : open_session c now0 d0 = Val (s0, outs0)).

(** C54: a session opens with one request, "started". *)
Theorem C54_opening : exists a, outs0 = [Get a] /\ t_ann s0 = a /\ about c a /\ a_event a = Some Started /\ a_tracker_id a = None /\ missing c d0 (a_left a).
Proof.
  unfold open_session in OPEN. destruct (left_bytes c d0) as [l| |] eqn:L; try discriminate. injection OPEN as <- <-.
  exists (first_announce c l). cbn. repeat split; auto; apply left_ok in L; apply L.
Qed.
(** Every later request is one of four: the last one again, unchanged, 64 s or
    more after it failed; or after the interval the tracker asked for, without an
    event; or "completed", after someone reported completion; or "stopped", on
    shutdown, and then the session is over. The last three follow an answer and
    state what is missing at that time. *)
Theorem C54_every_request : forall tr1 g tr2 s a, session_run c s0 now0 (tr1 ++ g :: tr2) s -> In (Get a) (e_outs g) ->
  e_outs g = [Get a] /\ about c a /\ a_tracker_id a = first_id tr1 /\
  exists tr0 f mid, tr1 = tr0 ++ f :: mid /\ Forall (fun e => e_event e = Completion) mid /\
   ((e_event f = Failure /\ e_event g = Elapsed /\ (e_now f + 64 <= e_now g)%N /\ a = last (requests_of tr0) (t_ann s0)) \/
    (exists r, e_event f = Answer r /\ missing c (e_downloaded g) (a_left a) /\
      ((e_event g = Elapsed /\ a_event a = None /\ (e_now f + r_interval r <= e_now g)%N) \/
       (e_event g = CompletionRead /\ a_event a = Some Completed) \/
       (e_event g = Shutdown /\ a_event a = Some Stopped /\ tr2 = [] /\ t_phase s = Ended)))).
Proof.
  intros tr1 g tr2 s a R IN. apply run_rrun in R. destruct R as (t & R). apply rrun_split in R. destruct R as (s1 & t1 & R1 & R2).
  apply rrun_first in R2. destruct R2 as (s2 & _ & S & R3). destruct (@inv_run _ _ _ _ _ _ _ _ OPEN R1) as (P & T & A & _).
  destruct (@step_requests _ _ _ _ _ _ _ _ S IN) as [(EV & PH & -> & SI & OU)|(iv & l & ev & PH & L & -> & OU & K)]; rewrite PH in P, T.
  - destruct P as (LA & _ & _ & (tr0 & f & mid & -> & FM & EF & NF)). repeat (split; [auto; fail|]). exists tr0, f, mid. repeat (split; [auto; fail|]). left.
    rewrite NF. repeat (split; [auto; fail|]). rewrite LA. unfold last_request. rewrite requests_app.
    assert (Z : requests_of (f :: mid) = []).
    { clear - R1 EF FM. change (f :: mid) with ([f] ++ mid) in R1. rewrite app_assoc in R1. apply rrun_split in R1. destruct R1 as (u & w & R1 & R2). apply rrun_split in R1. destruct R1 as (u' & w' & R0 & R1).
      assert (NG : forall x st st' ti, session_step c st ti (e_downloaded x) (e_event x) = Some (st', e_outs x) -> e_event x = Failure \/ e_event x = Completion -> requests (e_outs x) = []).
      { intros x st st' ti S E. destruct (requests (e_outs x)) as [|a l] eqn:Q; auto. exfalso.
        assert (I : In (Get a) (e_outs x)).
        { clear - Q. unfold requests in Q. assert (I : In a (flat_map (fun o => match o with Get a => [a] | Found _ => [] end) (e_outs x))) by (rewrite Q; left; auto).
          apply in_flat_map in I. destruct I as ([b|b] & I & J); [|destruct J]. destruct J as [->|[]]. exact I. }
        destruct (@step_requests _ _ _ _ _ _ _ _ S I) as [(X & _)|(? & ? & ? & _ & _ & _ & _ & [(X & _)|[(X & _)|(X & _)]])]; rewrite X in E; destruct E; discriminate. }
      change (requests_of (f :: mid)) with (requests (e_outs f) ++ requests_of mid).
      apply rrun_first in R1. destruct R1 as (u2 & _ & S & _). rewrite (NG f _ _ _ S) by auto. cbn [app]. clear S u2 R0 EF u' w'.
      revert u w R2. induction FM as [|x mid EX FM IH]; intros u w R2; auto. apply rrun_first in R2. destruct R2 as (u2 & _ & S & R2).
      change (requests_of (x :: mid)) with (requests (e_outs x) ++ requests_of mid). rewrite (NG x _ _ _ S) by auto. eauto. }
    rewrite Z, app_nil_r. reflexivity.
  - destruct P as (tr0 & f & mid & r & -> & FM & EF & NF & IV). split; [exact OU|]. split; [apply about_event; auto|]. split; [exact T|].
    exists tr0, f, mid. repeat (split; [auto; fail|]). right. exists r. split; [auto|]. split; [cbn [with_event a_left]; apply left_ok; auto|].
    rewrite NF, IV. cbn [with_event a_event]. destruct K as [(E1 & E2 & E3)|[(E1 & E2)|(E1 & E2 & E3)]]; [left; auto|right; left; auto|right; right].
    repeat (split; [auto; fail|]). clear - E3 R3. destruct tr2 as [|x tr2].
    + inversion R3; subst; [auto|]. destruct tr; discriminate.
    + exfalso. apply rrun_first in R3. destruct R3 as (s3 & _ & S & _). unfold session_step in S. rewrite E3 in S. destruct (e_event x); discriminate.
Qed.
(** "started" is repeated, unchanged, until the tracker answers, and never sent
    after that. *)
Theorem C54_started : forall tr1 tr2 s, session_run c s0 now0 (tr1 ++ tr2) s -> 
  (~ (exists e, In e tr1 /\ is_answer (e_event e)) -> Forall (eq (t_ann s0)) (requests_of tr1)) /\
  ((exists e, In e tr1 /\ is_answer (e_event e)) -> Forall (fun a => a_event a <> Some Started) (requests_of tr2)).
Proof.
  assert (RQ : forall tr a, In a (requests_of tr) -> exists x g y, tr = x ++ g :: y /\ In (Get a) (e_outs g)).
  { intros tr a I. apply in_flat_map in I. destruct I as (g & I & J). apply in_split in I. destruct I as (x & y & ->). exists x, g, y. split; auto.
    apply in_flat_map in J. destruct J as ([b|b] & J & K); [|destruct K]. destruct K as [->|[]]. exact J. }
  intros tr1 tr2 s R. split.
  - intro NA. apply run_rrun in R. destruct R as (t & R). apply rrun_split in R. destruct R as (s1 & t1 & R & _).
    induction R as [|tr st n n' d' e st' outs R IH L S]; [constructor|].
    assert (NA' : ~ answered tr) by (intros (x & I & X); apply NA; exists x; split; [apply in_or_app; auto|auto]).
    specialize (IH NA'). rewrite requests_app. apply Forall_app. split; [exact IH|]. apply Forall_forall. intros a I.
    cbn [requests_of flat_map e_outs] in I. rewrite app_nil_r in I.
    assert (J : In (Get a) outs). { apply in_flat_map in I. destruct I as ([b|b] & J & K); [|destruct K]. destruct K as [->|[]]. exact J. }
    destruct (@inv_run _ _ _ _ _ _ _ _ OPEN R) as (P & T & A & _).
    destruct (@step_requests _ _ _ _ _ _ _ _ S J) as [(EV & PH & -> & SI & OU)|(iv & l & ev & PH & _)]; rewrite PH in P.
    + destruct P as (-> & _). unfold last_request. clear - IH. induction (requests_of tr) as [|x l IHl] using rev_ind; auto.
      rewrite last_last. apply Forall_app in IH. destruct IH as (_ & IH). inversion IH; auto.
    + destruct NA'. eapply after_answer_answered; eauto.
  - intro AN. apply Forall_forall. intros a I. destruct (RQ _ _ I) as (x & g & y & -> & J). rewrite app_assoc in R.
    apply run_rrun in R. destruct R as (t & R). apply rrun_split in R. destruct R as (s1 & t1 & R1 & R2).
    apply rrun_first in R2. destruct R2 as (s2 & _ & S & R3). destruct (@inv_run _ _ _ _ _ _ _ _ OPEN R1) as (P & T & A & _).
    assert (AN' : answered (tr1 ++ x)) by (destruct AN as (e & IE & AE); exists e; split; [apply in_or_app; auto|auto]).
    destruct (@step_requests _ _ _ _ _ _ _ _ S J) as [(EV & PH & -> & SI & OU)|(iv & l & ev & PH & L & -> & OU & K)]; rewrite PH in P.
    + destruct P as (_ & P & _). auto.
    + cbn [with_event a_event]. destruct K as [(_ & -> & _)|[(_ & ->)|(_ & -> & _)]]; discriminate.
Qed.
(** "stopped" is the last thing a session does, so it is sent at most once. *)
Theorem C54_stopped_last : forall tr1 g tr2 s a, session_run c s0 now0 (tr1 ++ g :: tr2) s -> In (Get a) (e_outs g) -> a_event a = Some Stopped ->
  tr2 = [] /\ t_phase s = Ended /\ e_event g = Shutdown /\ Forall (fun b => a_event b <> Some Stopped) (requests_of tr1).
Proof.
  assert (LAST : forall tr1 g tr2 s a, session_run c s0 now0 (tr1 ++ g :: tr2) s -> In (Get a) (e_outs g) -> a_event a = Some Stopped ->
    tr2 = [] /\ t_phase s = Ended /\ e_event g = Shutdown).
  { intros tr1 g tr2 s a R I E. apply run_rrun in R. destruct R as (t & R). apply rrun_split in R. destruct R as (s1 & t1 & R1 & R2).
    apply rrun_first in R2. destruct R2 as (s2 & _ & S & R3). destruct (@inv_run _ _ _ _ _ _ _ _ OPEN R1) as (P & T & A & _).
    destruct (@step_requests _ _ _ _ _ _ _ _ S I) as [(EV & PH & -> & SI & OU)|(iv & l & ev & PH & L & -> & OU & K)]; rewrite PH in P.
    - destruct P as (_ & _ & P & _). congruence.
    - cbn [with_event a_event] in E. destruct K as [(_ & -> & _)|[(_ & ->)|(EV & -> & E3)]]; try discriminate. destruct tr2 as [|x tr2].
      + inversion R3; subst; [auto|]. destruct tr; discriminate.
      + exfalso. apply rrun_first in R3. destruct R3 as (s3 & _ & S3 & _). unfold session_step in S3. rewrite E3 in S3. destruct (e_event x); discriminate. }
  intros tr1 g tr2 s a R I E. destruct (LAST _ _ _ _ _ R I E) as (L1 & L2 & L3). repeat (split; [auto; fail|]).
  apply Forall_forall. intros b J X. apply in_flat_map in J. destruct J as (x & J & K). apply in_split in J. destruct J as (u & v & ->).
  apply in_flat_map in K. destruct K as ([b'|b'] & K & Q); [|destruct Q]. destruct Q as [->|[]].
  rewrite <- app_assoc in R. cbn [app] in R. destruct (LAST _ _ _ _ _ R K X) as (Z & _). destruct v; discriminate.
Qed.
(** The peers of every answer, and nothing else, go to the peer list. *)
Theorem C54_peers : forall tr1 g tr2 s, session_run c s0 now0 (tr1 ++ g :: tr2) s ->
  (forall r, e_event g = Answer r -> e_outs g = [Found (r_peers r)]) /\ (forall l, In (Found l) (e_outs g) -> exists r, e_event g = Answer r /\ l = r_peers r).
Proof.
  intros tr1 g tr2 s R. apply run_rrun in R. destruct R as (t & R). apply rrun_split in R. destruct R as (s1 & t1 & R1 & R2).
  apply rrun_first in R2. destruct R2 as (s2 & _ & S & R3). clear R1 R3. unfold session_step, announce_again in S. destruct g as [n d e o]. cbn [e_now e_downloaded e_event e_outs] in *.
  split.
  - intros r ->. destruct (t_phase s1); try discriminate. injection S as _ <-. reflexivity.
  - intros l I. destruct e as [r| | | | |], (t_phase s1) as [| |iv| |]; try discriminate S.
    + injection S as _ <-. destruct I as [I|[]]. injection I as <-. eauto.
    + injection S as _ <-. destruct I.
    + destruct (_ <=? _)%N; [|discriminate]. injection S as _ <-. destruct I as [I|[]]. discriminate.
    + destruct (_ <=? _)%N; [|discriminate]. destruct (left_bytes c d); injection S as _ <-; [destruct I as [I|[]]; discriminate|destruct I|destruct I].
    + injection S as _ <-. destruct I.
    + injection S as _ <-. destruct I.
    + injection S as _ <-. destruct I.
    + destruct (_ =? 0); [discriminate|]. destruct (_ <? _); [injection S as _ <-; destruct I|]. destruct (left_bytes c d); injection S as _ <-; [destruct I as [I|[]]; discriminate|destruct I|destruct I].
    + injection S as _ <-. destruct I.
    + injection S as _ <-. destruct I.
    + destruct (left_bytes c d); injection S as _ <-; [destruct I as [I|[]]; discriminate|destruct I|destruct I].
Qed.
(** Never more "completed" events than completions. *)
Theorem C54_completions : forall tr s, session_run c s0 now0 tr s -> count_events is_completion_read tr <= count_events is_completion tr.
Proof. intros tr s R. apply run_rrun in R. destruct R as (t & R). destruct (@inv_run _ _ _ _ _ _ _ _ OPEN R) as (_ & _ & _ & C). lia. Qed.
(** Shutdown ends the session wherever it stands; after an answer it first says
    "stopped". *)
Theorem C54_shutdown : forall tr s now d, session_run c s0 now0 tr s -> t_phase s <> Ended -> t_phase s <> Crashed ->
  (d <= c_pieces c)%N -> (c_pieces c * c_piece_length c < 2 ^ 64)%N ->
  exists s' outs, session_step c s now d Shutdown = Some (s', outs) /\ t_phase s' = Ended /\
    (forall iv, t_phase s = Idle iv -> exists a, outs = [Get a] /\ a_event a = Some Stopped) /\
    ((forall iv, t_phase s <> Idle iv) -> outs = []).
Proof.
  intros tr s now d R N1 N2 D L. unfold session_step. destruct (t_phase s) as [| |iv| |] eqn:PH; try congruence.
  - eexists _, _. split; [reflexivity|]. repeat split. intros iv X. discriminate.
  - eexists _, _. split; [reflexivity|]. repeat split. intros iv X. discriminate.
  - assert (E : exists l, left_bytes c d = Val l).
    { unfold left_bytes. rewrite (proj2 (N.ltb_ge _ _) D). change (2 ^ 64)%N with 18446744073709551616%N in L.
      assert (LE : ((c_pieces c - d) * c_piece_length c <= c_pieces c * c_piece_length c)%N) by (apply N.mul_le_mono_r; lia).
      assert (X : (u64_max <? (c_pieces c - d) * c_piece_length c)%N = false) by (apply N.ltb_ge; unfold u64_max; lia). rewrite X. eauto. }
    destruct E as (l & E). rewrite E. eexists _, _. split; [reflexivity|]. split; [reflexivity|]. split.
    + intros iv' _. eexists. split; reflexivity.
    + intro H. destruct (H iv eq_refl).
Qed.
(** Said of the events alone: the tracker is told exactly when the last thing the
    session heard, completions aside, is an answer. *)
Definition answered_last (tr : list tentry) : Prop :=
  exists tr0 f mid, tr = tr0 ++ f :: mid /\ is_answer (e_event f) /\ Forall (fun e => e_event e = Completion) mid.
Lemma answered_last_idle : forall tr s t, rrun c s0 now0 tr s t -> answered_last tr -> exists iv, t_phase s = Idle iv.
Proof.
  intros tr s t R. induction R as [|tr s n n' d' e s' outs R IH LE S]; intros (tr0 & f & mid & E & (r & F) & M); [destruct tr0; discriminate|].
  destruct mid as [|x mid _] using rev_ind.
  - apply app_inj_tail in E. destruct E as (-> & <-). cbn [e_event] in F. subst e. cbn [session_step] in S. destruct (t_phase s); try discriminate S. injection S as <- _. cbn. eauto.
  - rewrite app_comm_cons, app_assoc in E. apply app_inj_tail in E. destruct E as (-> & <-). apply Forall_app in M. destruct M as (M & X). apply Forall_inv in X. cbn [e_event] in X. subst e.
    destruct IH as (iv & IH); [exists tr0, f, mid; repeat split; [exists r; exact F|exact M]|].
    cbn [session_step] in S. rewrite IH in S. injection S as <- _. cbn. eauto.
Qed.
Theorem C84_exact : forall tr g s, session_run c s0 now0 (tr ++ [g]) s -> e_event g = Shutdown ->
  (e_downloaded g <= c_pieces c)%N -> (c_pieces c * c_piece_length c < 2 ^ 64)%N ->
  t_phase s = Ended /\
  (answered_last tr -> exists a, e_outs g = [Get a] /\ a_event a = Some Stopped) /\
  (~ answered_last tr -> e_outs g = []).
Proof.
  intros tr g s R EG D L. apply run_rrun in R. destruct R as (t & R). apply rrun_split in R. destruct R as (s1 & t1 & R1 & R2).
  apply rrun_first in R2. destruct R2 as (s2 & LE & S & R3). inversion R3 as [E1|? ? ? ? ? ? ? ? ? ? ? E1]; subst; [|destruct tr0; discriminate].
  destruct (@inv_run _ _ _ _ _ _ _ _ OPEN R1) as (P & _). rewrite EG in S.
  assert (E : exists l, left_bytes c (e_downloaded g) = Val l).
  { unfold left_bytes. rewrite (proj2 (N.ltb_ge _ _) D). change (2 ^ 64)%N with 18446744073709551616%N in L.
    assert (LE' : ((c_pieces c - e_downloaded g) * c_piece_length c <= c_pieces c * c_piece_length c)%N) by (apply N.mul_le_mono_r; lia).
    assert (X : (u64_max <? (c_pieces c - e_downloaded g) * c_piece_length c)%N = false) by (apply N.ltb_ge; unfold u64_max; lia). rewrite X. eauto. }
  destruct E as (l & E). cbn [session_step] in S. destruct (t_phase s1) as [| |iv| |] eqn:PH; try discriminate S.
  - injection S as <- <-. split; [reflexivity|]. split; [|auto]. intro A. destruct (answered_last_idle R1 A) as (iv & X). congruence.
  - injection S as <- <-. split; [reflexivity|]. split; [|auto]. intro A. destruct (answered_last_idle R1 A) as (iv & X). congruence.
  - rewrite E in S. injection S as <- <-. split; [reflexivity|]. split; [intros _; eexists; split; reflexivity|]. intro A. destruct A.
    destruct P as (tr0 & f & mid & r & -> & M & F & _). exists tr0, f, mid. repeat split; [exists r; exact F|exact M].
Qed.
(** A session does not crash as long as the counter stays within the torrent and
    the torrent within 2^64 bytes. *)
Theorem C54_no_crash : forall tr s, session_run c s0 now0 tr s -> (c_pieces c * c_piece_length c < 2 ^ 64)%N ->
  Forall (fun e => (e_downloaded e <= c_pieces c)%N) tr -> t_phase s <> Crashed.
Proof.
  intros tr s R L F. apply run_rrun in R. destruct R as (t & R). induction R as [|tr s n n' d' e s' outs R IH LE S].
  - unfold open_session in OPEN. destruct (left_bytes c d0); try discriminate. injection OPEN as <- _. discriminate.
  - apply Forall_app in F. destruct F as (F & G). specialize (IH F). apply Forall_inv in G. cbn [e_downloaded] in G.
    assert (E : exists l, left_bytes c d' = Val l).
    { unfold left_bytes. rewrite (proj2 (N.ltb_ge _ _) G). change (2 ^ 64)%N with 18446744073709551616%N in L.
      assert (LE' : ((c_pieces c - d') * c_piece_length c <= c_pieces c * c_piece_length c)%N) by (apply N.mul_le_mono_r; lia).
      assert (X : (u64_max <? (c_pieces c - d') * c_piece_length c)%N = false) by (apply N.ltb_ge; unfold u64_max; lia). rewrite X. eauto. }
    destruct E as (l & E). unfold session_step, announce_again in S. rewrite E in S. destruct e as [r| | | | |], (t_phase s) as [| |iv| |] eqn:PH; try discriminate S; try congruence;
    repeat match type of S with (if ?b then _ else _) = _ => destruct b; try discriminate S end; injection S as <- _; try discriminate; cbn [t_phase]; congruence.
Qed.
End Session.
(** ** an instance, and what does not hold *)
Definition ex_cfg : tracker_cfg := mk_cfg (str "http://t/a") (repeat x41 20) (repeat x42 20) 6881 10 16384.
Definition ex_resp (i : N) (t : option bytes) : response := mk_response None i None t 1 2 [mk_addr x0a x00 x00 x01 6881].
Fixpoint play (c : tracker_cfg) (s : tsession) (l : list (N * N * tevent)) : option (list tentry * tsession) :=
  match l with
  | [] => Some ([], s)
  | (now, d, e) :: t =>
    match session_step c s now d e with
    | Some (s', outs) => match play c s' t with Some (tr, s2) => Some (mk_entry now d e outs :: tr, s2) | None => None end
    | None => None
    end
  end.
Lemma play_run : forall c l s now tr s', play c s l = Some (tr, s') -> Forall (fun x => (now <= fst (fst x))%N) l ->
  (forall a x y b, l = a ++ x :: y :: b -> (fst (fst x) <= fst (fst y))%N) -> session_run c s now tr s'.
Proof.
  induction l as [|[[n d] e] l IH]; intros s now tr s' P F ORD; cbn [play] in P.
  - injection P as <- <-. constructor.
  - destruct (session_step c s n d e) as [[s1 o]|] eqn:S; [|discriminate]. destruct (play c s1 l) as [[tr1 s2]|] eqn:P1; [|discriminate]. injection P as <- <-.
    econstructor; [|exact S|].
    + apply Forall_inv in F. exact F.
    + apply IH; auto.
      * apply Forall_forall. intros x I. apply in_split in I. destruct I as (a & b & ->). clear - ORD.
        revert n d e ORD. induction a as [|[[m dm] em] a IHa]; intros n d e ORD.
        -- exact (ORD [] (n, d, e) x b eq_refl).
        -- pose proof (ORD [] (n, d, e) (m, dm, em) (a ++ x :: b) eq_refl) as L. cbn [fst] in L.
           specialize (IHa m dm em). assert (n <= m)%N by exact L.
           assert (m <= fst (fst x))%N; [|lia]. apply IHa. intros u y z v E. apply (ORD ((n, d, e) :: u) y z v). cbn [app]. f_equal. exact E.
      * intros a x y b ->. apply (ORD ((n, d, e) :: a) x y b). reflexivity.
Qed.
Definition ex_script : list (N * N * tevent) :=
  [(5, 0, Failure); (70, 0, Elapsed); (71, 0, Answer (ex_resp 100 (Some (str "k")))); (171, 3, Elapsed); (172, 3, Answer (ex_resp 100 (Some (str "z"))));
   (180, 10, Completion); (181, 10, CompletionRead); (182, 10, Answer (ex_resp 100 None)); (190, 10, Shutdown)]%N.
Example C54_example : exists s0 outs0 tr s, open_session ex_cfg 0 0 = Val (s0, outs0) /\ session_run ex_cfg s0 0 tr s /\
  map (fun a => (a_event a, a_left a, a_tracker_id a)) (requests outs0 ++ requests_of tr) =
    [(Some Started, 163840%N, None); (Some Started, 163840%N, None); (None, 114688%N, Some (str "k")); (Some Completed, 0%N, Some (str "k")); (Some Stopped, 0%N, Some (str "k"))] /\
  t_phase s = Ended.
Proof.
  destruct (open_session ex_cfg 0 0) as [[s0 o]| |] eqn:O; try discriminate. destruct (play ex_cfg s0 ex_script) as [[tr s]|] eqn:P.
  - exists s0, o, tr, s. split; [auto|]. split.
    + eapply play_run; [exact P| |].
      * repeat (constructor; [vm_compute; discriminate|]). constructor.
      * intros a x y b E. unfold ex_script in E. do 8 (destruct a as [|? a]; [injection E as <- <- _; vm_compute; discriminate|injection E as _ E]). destruct a as [|? [|? a]]; discriminate.
    + injection O as <- <-. vm_compute in P. injection P as <- <-. split; reflexivity.
  - exfalso. injection O as <- <-. vm_compute in P. discriminate.
Qed.
(** Full statement one would like: a session that was answered and is then shut
    down tells the tracker so. Not if the shutdown finds it waiting for a later
    announce: the tracker keeps listing the client. *)
Theorem C54_stopped_refuted : exists c now d s0 outs0 tr g s, open_session c now d = Val (s0, outs0) /\ session_run c s0 now (tr ++ [g]) s /\
  (exists e, In e tr /\ is_answer (e_event e)) /\ e_event g = Shutdown /\ t_phase s = Ended /\ Forall (fun a => a_event a <> Some Stopped) (requests_of (tr ++ [g])).
Proof.
  destruct (open_session ex_cfg 0 0) as [[s0 o]| |] eqn:O; try discriminate.
  destruct (play ex_cfg s0 [(1, 0, Answer (ex_resp 100 None)); (101, 0, Elapsed); (102, 0, Shutdown)]%N) as [[tr s]|] eqn:P.
  - assert (R : session_run ex_cfg s0 0 tr s).
    { eapply play_run; [exact P| |].
      * repeat (constructor; [vm_compute; discriminate|]). constructor.
      * intros a x y b E. do 2 (destruct a as [|? a]; [injection E as <- <- _; vm_compute; discriminate|injection E as _ E]). destruct a as [|? [|? a]]; discriminate. }
    injection O as <- <-. vm_compute in P. injection P as <- <-.
    eexists ex_cfg, 0%N, 0%N, _, _, [_; _], _, _. split; [reflexivity|]. split; [exact R|]. split; [|split; [reflexivity|split; [reflexivity|]]].
    + eexists. split; [left; reflexivity|]. eexists. reflexivity.
    + cbn. repeat constructor; discriminate.
  - exfalso. injection O as <- <-. vm_compute in P. discriminate.
Qed.
(** Nor does every session open: a torrent that claims more than 2^64 bytes
    crashes it at the start. *)
Theorem C54_opens_refuted : exists c, (c_pieces c < 2 ^ 64)%N /\ (c_piece_length c < 2 ^ 64)%N /\ forall now, open_session c now 0 = Panic.
Proof. exists (mk_cfg [] [] [] 0 2 9223372036854775808). repeat split. Qed.
(** Exactly when a session opens. *)
Theorem C84_opens_exact : forall c now d,
  ((exists s o, open_session c now d = Val (s, o)) <-> (d <= c_pieces c)%N /\ ((c_pieces c - d) * c_piece_length c < 2 ^ 64)%N) /\
  (open_session c now d = Panic \/ exists s o, open_session c now d = Val (s, o)).
Proof.
  intros c now d. unfold open_session, left_bytes. change (2 ^ 64)%N with 18446744073709551616%N.
  destruct (c_pieces c <? d)%N eqn:D; [apply N.ltb_lt in D|apply N.ltb_ge in D].
  - split; [|left; reflexivity]. split; [intros (s & o & E); discriminate|]. lia.
  - destruct (u64_max <? (c_pieces c - d) * c_piece_length c)%N eqn:U; [apply N.ltb_lt in U|apply N.ltb_ge in U]; unfold u64_max in U.
    + split; [|left; reflexivity]. split; [intros (s & o & E); discriminate|]. lia.
    + split; [|right; eexists _, _; reflexivity]. split; [intros _; split; lia|]. intros _. eexists _, _. reflexivity.
Qed.
Print Assumptions C54_opening.
Print Assumptions C54_every_request.
Print Assumptions C54_started.
Print Assumptions C54_stopped_last.
Print Assumptions C54_peers.
Print Assumptions C54_completions.
Print Assumptions C54_shutdown.
Print Assumptions C54_no_crash.
Print Assumptions C54_stopped_refuted.
Print Assumptions C54_opens_refuted.
Print Assumptions C84_exact.
Print Assumptions C84_opens_exact.
