(** C74, exactly: what of earlier datagrams goes into the reading of a new one,
    and which datagrams are read from their own bytes only. *)
From Coq Require Import Strings.String.
From Coq Require Import List NArith ZArith Lia Bool Arith.
From Coq Require Import Init.Byte.
From Verif Require Import Base Assoc IdModel WireModel WireProofs TableModel BencodeModel BencodeSpec BencodeProofs BencodeProps KrpcModel Utf8Spec Utf8Proofs KrpcSpec KrpcProofs KrpcProps DhtModel DhtSpec DhtProps.
Import ListNotations.
Set Implicit Arguments.
Local Open Scope list_scope.

Section buffer.
Variable sha : bytes -> bytes.

(** The buffer after the socket task has received [ds], the latest first, in any
    states it was in and from any senders. *)
Inductive fed : list bytes -> bytes -> Prop :=
| fed_nil : fed [] new_buf
| fed_cons : forall ds buf e s from dg s' buf' o, fed ds buf ->
    on_datagram sha e s buf from dg = Val (s', buf', o) -> fed (dg :: ds) buf'.
(** The byte at place [i] of the latest datagram that had one there. *)
Fixpoint latest (ds : list bytes) (i : nat) : byte :=
  match ds with
  | [] => x00
  | d :: ds' => match nth_error d i with Some b => b | None => latest ds' i end
  end.

Lemma on_buf : forall e s buf from dg s' buf' o, on_datagram sha e s buf from dg = Val (s', buf', o) -> buf' = recv_into buf dg.
Proof.
  intros e s buf from dg s' buf' o H. unfold on_datagram in H. destruct from as [a|]; [|injection H; auto].
  destruct (kmsg_from_bytes _) as [m| |]; [|injection H; auto|discriminate].
  destruct (dstep sha e s (EIn a m)) as [so| |]; try discriminate. cbn [rmap] in H. injection H; auto.
Qed.
Lemma nth_recv : forall buf dg i, length buf = BUF_LEN -> i < BUF_LEN ->
  nth i (recv_into buf dg) x00 = match nth_error dg i with Some b => b | None => nth i buf x00 end.
Proof.
  intros buf dg i L I. unfold recv_into. destruct (nth_error dg i) as [b|] eqn:E.
  - assert (i < length dg) as D by (apply nth_error_Some; congruence). rewrite app_nth1 by (rewrite firstn_length; lia).
    apply nth_error_nth with (d := x00) in E. rewrite <- E. rewrite <- (firstn_skipn BUF_LEN dg) at 2. rewrite app_nth1 by (rewrite firstn_length; lia). reflexivity.
  - apply nth_error_None in E. rewrite firstn_all2 by lia. rewrite app_nth2 by auto.
    rewrite <- (firstn_skipn (length dg) buf) at 2. rewrite app_nth2; rewrite firstn_length_le by lia; [reflexivity|lia].
Qed.
(** The buffer a message is read from holds, place by place, what the latest
    datagram long enough brought. *)
Theorem C74_buffer_exact : forall ds buf, fed ds buf -> length buf = 2600 /\ forall i, i < 2600 -> nth i buf x00 = latest ds i.
Proof.
  induction 1 as [|ds buf e s from dg s' buf' o F [L IH] H].
  - split; [apply repeat_length|]. intros i I. apply nth_repeat.
  - apply on_buf in H. subst buf'. split; [apply recv_len; auto|]. intros i I. rewrite nth_recv by auto. cbn [latest]. rewrite IH by auto. reflexivity.
Qed.

Lemma enc_dict_last : forall l, exists s, enc (BDict l) = s ++ [x65].
Proof.
  intro l. cbn [enc]. set (go := fix go l := match l with [] => [x65] | (k, v) :: t => enc_str k ++ enc v ++ go t end).
  assert (exists s, go l = s ++ [x65]) as (s & ->); [|exists (x64 :: s); reflexivity].
  induction l as [|[k v] l (s & IH)]; [exists []; reflexivity|]. change (go ((k, v) :: l)) with (enc_str k ++ enc v ++ go l). rewrite IH.
  exists (enc_str k ++ enc v ++ s). rewrite !app_assoc. reflexivity.
Qed.
Lemma read_dict : forall s, kmsg_from_bytes s <> Fail -> exists l tl, decode s = Some (BDict l, tl).
Proof.
  intros s H. unfold kmsg_from_bytes in H. destruct (decode s) as [[v tl]|] eqn:D; [|congruence].
  destruct (ints_ok v); [|congruence]. destruct v; try (cbn in H; congruence). eauto.
Qed.
(** A dictionary that ends in what was received was received whole. *)
Lemma whole : forall dg z l tl, decode (dg ++ z) = Some (BDict l, tl) -> ~ In x65 z -> decode dg <> None.
Proof.
  intros dg z l tl D N. unfold decode in *. apply decode_inv in D. destruct D as (E & O & Nn).
  assert (length (enc (BDict l)) <= length dg) as L.
  { destruct (le_lt_dec (length (enc (BDict l))) (length dg)) as [K|K]; auto. exfalso. apply N.
    destruct (enc_dict_last l) as (s & Es). rewrite Es in *. rewrite app_length in K. cbn in K.
    assert (nth_error (dg ++ z) (length s) = Some x65) as X.
    { rewrite E. rewrite <- app_assoc. rewrite nth_error_app2 by auto. rewrite Nat.sub_diag. reflexivity. }
    rewrite nth_error_app2 in X by lia. eapply nth_error_In; eauto. }
  assert (dg = enc (BDict l) ++ skipn (length (enc (BDict l))) dg) as W.
  { rewrite <- (firstn_skipn (length (enc (BDict l))) dg) at 1. f_equal.
    assert (firstn (length (enc (BDict l))) (dg ++ z) = enc (BDict l)) as X by (rewrite E, firstn_app, Nat.sub_diag, firstn_all, app_nil_r; reflexivity).
    rewrite firstn_app in X. replace (length (enc (BDict l)) - length dg) with 0 in X by lia. rewrite app_nil_r in X. exact X. }
  rewrite W, decode_enc by auto. discriminate.
Qed.
Definition effect (r : res (dcon * bytes * list out)) : res (dcon * list out) := rmap (fun r => (fst (fst r), snd r)) r.
(** A datagram that is not a whole value does nothing if no datagram came
    before it (nor only such as had no [e] beyond its end). *)
Theorem C74_first_always : forall e s buf from dg, length dg <= 2600 -> decode dg = None -> ~ In x65 (skipn (length dg) buf) ->
  effect (on_datagram sha e s buf from dg) = Val (s, []).
Proof.
  intros e s buf from dg L D N. unfold effect, on_datagram. destruct from as [a|]; [|reflexivity]. rewrite recv_short by auto.
  assert (kmsg_from_bytes (dg ++ skipn (length dg) buf) = Fail) as ->; [|reflexivity].
  assert (~ kmsg_from_bytes (dg ++ skipn (length dg) buf) <> Fail) as X.
  { intro X. apply read_dict in X. destruct X as (l & tl & X). exact (@whole _ _ _ _ X N D). }
  destruct (kmsg_from_bytes _); try reflexivity; exfalso; apply X; discriminate.
Qed.
Lemma new_no_e : forall n, ~ In x65 (skipn n new_buf).
Proof.
  intros n H. assert (In x65 new_buf) as I by (rewrite <- (firstn_skipn n new_buf); apply in_or_app; auto).
  apply repeat_spec in I. discriminate.
Qed.
(** A datagram is understood from its own bytes only exactly if it is a whole
    value, or if nothing that may have been received before makes it do
    anything. *)
Theorem C74_exact : forall e s from dg, length dg <= 2600 ->
  ((forall b1 b2, length b1 = 2600 -> length b2 = 2600 ->
      effect (on_datagram sha e s b1 from dg) = effect (on_datagram sha e s b2 from dg)) <->
   (decode dg <> None \/ forall buf, length buf = 2600 -> effect (on_datagram sha e s buf from dg) = Val (s, []))).
Proof.
  intros e s from dg L. split.
  - intro H. destruct (decode dg) eqn:D; [left; discriminate|]. right. intros buf B. rewrite (H buf new_buf B) by apply repeat_length.
    apply C74_first_always; auto. apply new_no_e.
  - intros [D|H] b1 b2 B1 B2; [apply C74_own_bytes_partial; auto|]. rewrite !H by auto. reflexivity.
Qed.
End buffer.

(** The datagram [d1:ad2:id20:...] of a ping cut short after its first byte: on
    its own it does nothing, after a whole ping it is answered. *)
Example C74_exact_example : decode [x64] = None /\ fed (fun b => b) [[x64]] (recv_into new_buf [x64]) /\
  ~ In x65 (skipn (length [x64]) new_buf) /\ length [x64] <= BUF_LEN /\
  latest [[x64]; [x01; x02; x03]] 0 = x64 /\ latest [[x64]; [x01; x02; x03]] 2 = x03 /\ latest [[x64]; [x01; x02; x03]] 3 = x00.
Proof.
  split; [reflexivity|]. split.
  - eapply fed_cons with (e := mk_env true (fun _ => true)) (s := mk_dcon [] [] []) (from := None); [apply fed_nil|reflexivity].
  - split; [apply new_no_e|]. split; [unfold BUF_LEN; cbn; lia|]. repeat split.
Qed.
Example C74_dependent_example : forall sha e s a, exists b1 b2, length b1 = BUF_LEN /\ length b2 = BUF_LEN /\
  effect (on_datagram sha e s b1 (Some a) [x64]) <> effect (on_datagram sha e s b2 (Some a) [x64]).
Proof.
  intros sha e s a. exists new_buf. destruct (@C74_refuted sha (d_own s) (d_secret s)) as (A & _ & P & _).
  destruct (P e s new_buf (repeat x00 20) [] a a ltac:(apply repeat_length) eq_refl ltac:(cbn; lia)) as (buf' & E1 & _).
  set (dg := kmsg_bytes (ping_query (repeat x00 20) [])) in *.
  assert (length dg <= BUF_LEN) as LD by (unfold dg; apply Nat.leb_le; reflexivity).
  exists (recv_into new_buf dg). split; [apply repeat_length|]. split; [unfold recv_into, new_buf; rewrite app_length, firstn_length, skipn_length, repeat_length; lia|].
  intro X. pose proof (@C74_first_always sha e s new_buf (Some a) [x64] ltac:(unfold BUF_LEN; cbn; lia) eq_refl (@new_no_e _)) as F.
  rewrite X in F. change [x64] with (firstn 1 dg) in F. rewrite A in F by (auto; apply repeat_length). rewrite E1 in F. discriminate.
Qed.
Print Assumptions C74_buffer_exact.
Print Assumptions C74_first_always.
Print Assumptions C74_exact.
