(** C107: how often a tracker is asked. *)
From Coq Require Import Strings.String.
From Coq Require Import List NArith ZArith Lia Bool Arith.
From Coq Require Import Init.Byte.
From Verif Require Import Base IdModel WireModel BencodeModel KrpcModel TrackerModel TrackerSpec SessionProps RateSpec.
Import ListNotations.
Set Implicit Arguments.

(** What is still owed: a request for every completion not read yet, and the
    last one. *)
Definition owed (s : tsession) : N := match t_phase s with Asking | Resting | Idle _ => N.of_nat (t_unread s) + 1 | _ => 0 end.
Definition rests (k : N) (s : tsession) : Prop := match t_phase s with Idle iv => (k <= iv)%N | _ => True end.
(** What a failed request costs beyond the 64 seconds after it. *)
Definition excuse (k : N) (s : tsession) : N := match t_phase s with Resting => k - 64 | _ => 0 end.
Lemma step_rate : forall c s now now' d e s' outs k, session_step c s now' d e = Some (s', outs) ->
  (forall r, e = Answer r -> (k <= r_interval r)%N) -> rests k s -> (t_since s <= now)%N -> (now <= now')%N ->
  rests k s' /\ (t_since s' <= now')%N /\
  (k * N.of_nat (List.length (requests outs)) + t_since s + k * owed s' + excuse k s' <=
   t_since s' + k * owed s + excuse k s + (if is_completion e then k else 0) + (if is_failure e then k - 64 else 0))%N.
Proof.
  intros c s now now' d e s' outs k S AN RS LE NN. unfold session_step in S. unfold rests, owed, excuse in *.
  destruct e as [r| | | | |], (t_phase s) as [| |iv| |] eqn:PH; try discriminate S.
  all: repeat match type of S with (if ?b then _ else _) = _ => let E := fresh "E" in destruct b eqn:E; try discriminate S end.
  all: try (unfold announce_again in S; destruct (left_bytes c d) as [l| |] eqn:L).
  all: injection S as <- <-; cbn [t_phase t_since t_unread crashed requests flat_map List.length app is_completion is_failure]; rewrite ?PH.
  all: repeat match goal with H : (_ <=? _)%N = true |- _ => apply N.leb_le in H end; unfold RETRY_SECS in *.
  all: try (specialize (AN _ eq_refl)).
  all: try (match goal with H : (t_unread ?z =? 0) = false |- _ => apply Nat.eqb_neq in H end).
  all: split; [try assumption; try exact I|]; split; [lia|]; try nia.
Qed.
Lemma run_rate : forall c s now tr s' k, session_run c s now tr s' -> asks_for k tr -> rests k s -> (t_since s <= now)%N ->
  (k * N.of_nat (List.length (requests_of tr)) + t_since s <=
   end_time now tr + k * N.of_nat (count_events is_completion tr) + (k - 64) * N.of_nat (count_events is_failure tr) + k * owed s + excuse k s)%N.
Proof.
  intros c s now tr s' k R. induction R as [s now|s now now' d e s1 outs tr s2 LE S R IH]; intros AF RS SI.
  - cbn. lia.
  - destruct (@step_rate _ _ _ _ _ _ _ _ _ S (fun r E => AF _ r (or_introl eq_refl) E) RS SI LE) as (RS1 & SI1 & B).
    specialize (IH (fun e0 r I E => AF e0 r (or_intror I) E) RS1 SI1).
    unfold requests_of. cbn [flat_map e_outs end_time e_now]. fold (requests_of tr). rewrite app_length, Nat2N.inj_add.
    unfold count_events. cbn [filter e_event]. fold (count_events is_completion tr) in *. fold (count_events is_failure tr) in *.
    destruct (is_completion e), (is_failure e); cbn [List.length]; unfold count_events in IH |- *; nia.
Qed.

(** ** the claims *)
(** Full statement: between an answer and the next request that nothing but the
    clock called for, the pause the tracker asked for passes; so a tracker that
    asks for a pause is not asked more often. What does not hold is below
    ([C107_pause_refuted], [C107_flood_refuted]).
    What does hold: while every answer asks for an interval of at least [k]
    seconds, there is at most one request every [k] seconds after the first,
    apart from one for every reported completion and the last, and a request
    that failed is repeated after 64 seconds. *)
Theorem C107_rate_partial : forall c now d s0 outs0 tr s k, open_session c now d = Val (s0, outs0) -> session_run c s0 now tr s ->
  asks_for k tr ->
  (k * N.of_nat (List.length (requests_of tr)) + now <=
   end_time now tr + k * N.of_nat (count_events is_completion tr) + (k - 64) * N.of_nat (count_events is_failure tr) + k)%N.
Proof.
  intros c now d s0 outs0 tr s k O R AF. unfold open_session in O. destruct (left_bytes c d) as [l| |]; try discriminate O. injection O as <- <-.
  pose proof (@run_rate _ _ _ _ _ _ R AF I (N.le_refl _)) as B. cbn [t_since owed excuse t_phase t_unread] in B. lia.
Qed.
(** An instance: four requests after the first in 190 seconds, one of them for
    the completion, one the last; the tracker asked for 60 seconds. *)
Definition rate_resp (i : N) (m : option N) : response := mk_response None i m None 1 2 [mk_addr x0a x00 x00 x01 6881].
Definition rate_script : list (N * N * tevent) :=
  [(5, 0, Failure); (70, 0, Elapsed); (71, 0, Answer (rate_resp 60 None)); (131, 3, Elapsed); (132, 3, Answer (rate_resp 60 None));
   (180, 10, Completion); (181, 10, CompletionRead); (182, 10, Answer (rate_resp 60 None)); (190, 10, Shutdown)]%N.
Example C107_rate_example : exists s0 outs0 tr s, open_session ex_cfg 0 0 = Val (s0, outs0) /\ session_run ex_cfg s0 0 tr s /\ asks_for 60 tr /\
  List.length (requests_of tr) = 4 /\ end_time 0 tr = 190%N /\ count_events is_completion tr = 1 /\ count_events is_failure tr = 1.
Proof.
  destruct (open_session ex_cfg 0 0) as [[s0 o]| |] eqn:O; try discriminate. destruct (play ex_cfg s0 rate_script) as [[tr s]|] eqn:P.
  - exists s0, o, tr, s. split; [auto|]. split.
    + eapply play_run; [exact P| |].
      * repeat (constructor; [vm_compute; discriminate|]). constructor.
      * intros a x y b E. unfold rate_script in E. do 8 (destruct a as [|? a]; [injection E as <- <- _; vm_compute; discriminate|injection E as _ E]). destruct a as [|? [|? a]]; discriminate.
    + injection O as <- <-. vm_compute in P. injection P as <- <-. split; [|repeat split; reflexivity].
      intros e r I E. cbn [In] in I. repeat (destruct I as [<-|I]; [cbn [e_event] in E; first [discriminate E|injection E as <-; vm_compute; discriminate]|]). destruct I.
  - exfalso. injection O as <- <-. vm_compute in P. discriminate.
Qed.
(** The pause in full: false, [min interval] is read and then not looked at. *)
Definition C107_pause_always : Prop := forall c now d s0 outs0 tr f r mid g a tr2 s, open_session c now d = Val (s0, outs0) ->
  session_run c s0 now (tr ++ f :: mid ++ g :: tr2) s -> e_event f = Answer r -> Forall (fun e => e_event e = Completion) mid ->
  e_event g = Elapsed -> In (Get a) (e_outs g) -> (e_now f + pause r <= e_now g)%N.
Theorem C107_pause_refuted : ~ C107_pause_always.
Proof.
  intros C. destruct (open_session ex_cfg 0 0) as [[s0 o]| |] eqn:O; try discriminate.
  destruct (play ex_cfg s0 [(1, 0, Answer (rate_resp 5 (Some 1800%N))); (6, 0, Elapsed)]%N) as [[tr s]|] eqn:P.
  - assert (R : session_run ex_cfg s0 0 tr s).
    { eapply play_run; [exact P| |].
      * repeat (constructor; [vm_compute; discriminate|]). constructor.
      * intros a x y b E. destruct a as [|? a]; [injection E as <- <- _; vm_compute; discriminate|injection E as _ E]. destruct a as [|? [|? a]]; discriminate. }
    injection O as <- <-. vm_compute in P. injection P as <- <-.
    specialize (C ex_cfg 0%N 0%N _ _ [] _ _ [] _ _ [] _ eq_refl R eq_refl (Forall_nil _) eq_refl (or_introl eq_refl)). vm_compute in C. exact (C eq_refl).
  - exfalso. injection O as <- <-. vm_compute in P. discriminate.
Qed.
(** And no rate at all if the interval is zero: any number of requests at one
    moment, though every answer sets a minimum of half an hour. Only the time
    an answer takes slows it down. *)
Theorem C107_flood_refuted : exists c s0 outs0, open_session c 0 0 = Val (s0, outs0) /\
  forall n, exists tr s, session_run c s0 0 tr s /\ end_time 0 tr = 0%N /\ List.length (requests_of tr) = n /\
    forall e r, In e tr -> e_event e = Answer r -> r_min_interval r = Some 1800%N.
Proof.
  destruct (open_session ex_cfg 0 0) as [[s0 o]| |] eqn:O; try discriminate. exists ex_cfg, s0, o. split; [auto|].
  injection O as <- <-. intros n.
  assert (G : forall n a0, exists tr s, session_run ex_cfg (mk_session Asking a0 0 0) 0 tr s /\ end_time 0 tr = 0%N /\ List.length (requests_of tr) = n /\
    forall e r, In e tr -> e_event e = Answer r -> r_min_interval r = Some 1800%N).
  { clear n. induction n as [|n IH]; intros a0.
    - exists [], (mk_session Asking a0 0 0). split; [constructor|]. repeat split. intros e r [].
    - destruct (IH (with_event a0 None 163840)) as (tr & s & R & E & L & M).
      exists (mk_entry 0 0 (Answer (rate_resp 0 (Some 1800%N))) [Found [mk_addr x0a x00 x00 x01 6881]] ::
              mk_entry 0 0 Elapsed [Get (with_event a0 None 163840)] :: tr), s. split; [|split; [exact E|split; [unfold requests_of; cbn; f_equal; exact L|]]].
      + econstructor; [apply N.le_refl| |econstructor; [apply N.le_refl| |exact R]].
        * cbn [session_step t_phase t_ann r_tracker_id rate_resp]. destruct (a_tracker_id a0); reflexivity.
        * reflexivity.
      + intros e r [<-|[<-|I]] X; [injection X as <-; reflexivity|discriminate X|exact (M e r I X)]. }
  apply G.
Qed.
Print Assumptions C107_rate_partial.
Print Assumptions C107_rate_example.
Print Assumptions C107_pause_refuted.
Print Assumptions C107_flood_refuted.
