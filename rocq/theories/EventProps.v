(** C15 and C16 for the receive task as it runs: a list of reads, each of which
    succeeds or fails. *)
From Coq Require Import List NArith ZArith Lia Bool Arith.
From Coq Require Import Init.Byte.
From Verif Require Import Base WireModel WireSpec WireProofs WireProps.
Import ListNotations.
Set Implicit Arguments.

(** ** Vocabulary *)
(** No read gives more than there is room for in the buffer at that time. *)
Fixpoint fits (s : recv) (chunks : list bytes) : Prop :=
  match chunks with
  | [] => True
  | c :: cs => length c <= recv_avail s /\ forall p, recv_read s c = Val p -> fits (fst p) cs
  end.

(** ** Proofs *)
Lemma steps_run : forall chunks s rest s' ms r, fits s chunks -> recv_run s (concat chunks ++ rest) (map (@length byte) chunks) = Val (s', ms, r) ->
  r = rest /\ recv_steps (Running s) (map ReadOk chunks) = Val (Running s', ms).
Proof.
  induction chunks as [|c cs IH]; intros s rest s' ms r F H; cbn [map concat app recv_run recv_steps recv_step] in *.
  - injection H as <- <- <-. auto.
  - destruct F as [L F]. rewrite <- app_assoc in H. replace (Nat.min (length c) (Nat.min (recv_avail s) (length (c ++ concat cs ++ rest)))) with (length c) in H by (rewrite app_length; lia).
    rewrite firstn_app, Nat.sub_diag, firstn_O, app_nil_r, firstn_all, skipn_app, Nat.sub_diag, skipn_O, skipn_all in H. cbn [app] in H.
    destruct (recv_read s c) as [p| |] eqn:E; try discriminate. cbn [rbind rmap fst snd] in *.
    destruct (recv_run (fst p) (concat cs ++ rest) (map (@length byte) cs)) as [[[s1 m1] r1]| |] eqn:R; try discriminate. cbn [rmap] in H. injection H as <- <- <-.
    destruct (IH (fst p) rest s1 m1 r1 (F p eq_refl) R) as [-> ->]. split; reflexivity.
Qed.
Lemma steps_stopped : forall es, recv_steps Stopped es = Val (Stopped, []).
Proof. induction es as [|e es IH]; [reflexivity|]. cbn [recv_steps recv_step rbind fst snd]. rewrite IH. reflexivity. Qed.
Lemma steps_app : forall es st st' ms es', recv_steps st es = Val (st', ms) ->
  recv_steps st (es ++ es') = rmap (fun q => (fst q, ms ++ snd q)) (recv_steps st' es').
Proof.
  induction es as [|e es IH]; intros st st' ms es' H; cbn [recv_steps app] in *.
  - injection H as <- <-. destruct (recv_steps st es') as [[a b]| |]; reflexivity.
  - destruct (recv_step st e) as [p| |]; try discriminate. cbn [rbind] in *. destruct (recv_steps (fst p) es) as [[a b]| |] eqn:R; try discriminate. cbn [rmap] in H. injection H as <- <-.
    rewrite (IH _ _ _ es' R). destruct (recv_steps a es') as [[x y]| |]; try reflexivity. cbn [rmap fst snd]. rewrite app_assoc. reflexivity.
Qed.

(** ** Theorems *)
(** Whatever reads a stream of messages comes in: what was delivered is a prefix of
    the messages, in their order, the rest is in the buffer or still to come, and
    when all was read all was delivered. *)
Theorem C15_reads : forall ms chunks rest, Forall wf_msg ms -> fits recv_init chunks -> stream_of ms = concat chunks ++ rest ->
  exists s delivered todo, recv_steps (Running recv_init) (map ReadOk chunks) = Val (Running s, delivered) /\ ms = delivered ++ todo /\
    firstn (rv_len s) (rv_buf s) ++ rest = stream_of todo /\ (rest = [] -> delivered = ms).
Proof.
  intros ms chunks rest W F E. destruct (C15_reassembly (map (@length byte) chunks) W) as (s & d & t & r & H & M & B & X). rewrite E in H.
  destruct (steps_run _ _ _ F H) as [-> S]. exists s, d, t. split; [exact S|]. split; [exact M|]. split; [exact B|]. intro Z. apply X. exact Z.
Qed.
(** If a read fails, the messages that had come by then have been delivered, and
    nothing is delivered afterwards. *)
Theorem C16_until_error : forall ms chunks rest es, Forall wf_msg ms -> fits recv_init chunks -> stream_of ms = concat chunks ++ rest ->
  exists delivered todo, recv_steps (Running recv_init) (map ReadOk chunks ++ ReadErr :: es) = Val (Stopped, delivered) /\ ms = delivered ++ todo /\
    (forall pre post, ms = pre ++ post -> length (stream_of pre) <= length (concat chunks) -> exists more, delivered = pre ++ more).
Proof.
  intros ms chunks rest es W F E. destruct (C15_reassembly (map (@length byte) chunks) W) as (s & d & t & r & H & M & B & X). pose proof H as H'. rewrite E in H'.
  destruct (steps_run _ _ _ F H') as [-> S]. exists d, t. rewrite (steps_app _ _ _ S). cbn [recv_steps recv_step rbind fst snd rmap]. rewrite steps_stopped. cbn [rmap fst snd]. rewrite app_nil_r.
  split; [reflexivity|]. split; [exact M|]. intros pre post P L. apply (@C15_prompt ms (map (@length byte) chunks) s d rest W H pre post P). rewrite E, app_length. lia.
Qed.

(** Two messages in three reads, then an error. *)
Example C15_reads_example : let ms := [Have 7; Unchoke] in let chunks := [firstn 3 (stream_of ms); firstn 8 (skipn 3 (stream_of ms)); skipn 11 (stream_of ms)] in
  Forall wf_msg ms /\ fits recv_init chunks /\ stream_of ms = concat chunks ++ [] /\ length (concat chunks) = 14 /\
  exists st, recv_steps (Running recv_init) (map ReadOk chunks) = Val (Running st, ms).
Proof.
  cbn zeta. split; [|split; [|split; [|split]]].
  - repeat constructor.
  - cbn [fits]. split; [apply Nat.leb_le; vm_compute; reflexivity|]. intros p1 E1. vm_compute in E1. injection E1 as <-.
    split; [apply Nat.leb_le; vm_compute; reflexivity|]. intros p2 E2. vm_compute in E2. injection E2 as <-.
    split; [apply Nat.leb_le; vm_compute; reflexivity|]. auto.
  - reflexivity.
  - reflexivity.
  - eexists. vm_compute. reflexivity.
Qed.
Print Assumptions C15_reads.
Print Assumptions C16_until_error.
