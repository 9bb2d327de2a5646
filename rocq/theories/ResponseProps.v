(** C55: answers of trackers. *)
From Coq Require Import Strings.String.
From Coq Require Import List NArith ZArith Lia Bool Arith Sorted.
From Coq Require Import Init.Byte.
From Verif Require Import Base IdModel WireModel WireProofs BencodeModel BencodeSpec BencodeProofs BencodeProps KrpcModel KrpcProofs TrackerModel TrackerSpec DictProofs.
Import ListNotations.
Set Implicit Arguments.

(** ** the peers *)
Lemma six_len : forall a, length (six a) = 6.
Proof. intros [a b c d p]. reflexivity. Qed.
Lemma six_bytes : forall a, wf_addr a -> socketaddr_from_compact_bytes (six a) = Val a.
Proof.
  intros a W. assert (E : six a = peer_to_bytes a).
  { unfold six, peer_to_bytes. f_equal. unfold wf_addr in W. cbn [be_bytes]. change (256 ^ N.of_nat 1)%N with 256%N. change (256 ^ N.of_nat 0)%N with 1%N.
    f_equal; [|f_equal].
    - f_equal. change 8%N with (N.log2 256). rewrite N.shiftr_div_pow2. reflexivity.
    - change 255%N with (N.ones 8). rewrite N.land_ones. change (2 ^ 8)%N with 256%N. rewrite N.div_1_r.
      apply b2n_inj. rewrite !b2n_n2b. lia. }
  rewrite E. pose proof (@peer_roundtrip a W) as R. unfold peer_visit_bytes, peer_from_compact_bytes in R.
  rewrite <- E in *. rewrite six_len in R. cbn [COMPACT_SOCKADDR_LEN Nat.eqb] in R. exact R.
Qed.
Lemma filter_ok_map : forall A B (f : A -> res B) (g : B -> A) l, (forall x, In x l -> f (g x) = Val x) -> filter_ok f (map g l) = l.
Proof.
  intros A B f g l H. induction l as [|x l IH]; auto. cbn [map filter_ok]. rewrite H by (left; auto). f_equal. apply IH. intros y I. apply H. right. auto.
Qed.
Lemma peers_read : forall l rest, Forall wf_addr l -> length rest < 6 -> p_peers (BStr (flat_map six l ++ rest)) = Val l.
Proof.
  intros l rest W R. unfold p_peers. cbn [p_buf rmap]. rewrite chunks_exact_blocks by (auto; try lia; intros; apply six_len).
  rewrite filter_ok_map; auto. intros a I. apply six_bytes. rewrite Forall_forall in W. auto.
Qed.
Lemma split6 : forall s, exists l rest, s = flat_map six l ++ rest /\ Forall wf_addr l /\ length rest < 6.
Proof.
  intro s. assert (G : forall n s, length s <= n -> exists l rest, s = flat_map six l ++ rest /\ Forall wf_addr l /\ length rest < 6).
  { clear. induction n as [|n IH]; intros s L.
    - destruct s; [|cbn in L; lia]. exists [], []. repeat split; auto. cbn; lia.
    - destruct s as [|a [|b [|c [|d [|e [|f s]]]]]];
      try match goal with |- exists l rest, ?s0 = _ /\ _ => exists [], s0; repeat split; auto; cbn; lia end.
      cbn [length] in L. destruct (IH s ltac:(lia)) as (l & rest & -> & W & R).
      exists (mk_addr a b c d (b2n e * 256 + b2n f) :: l), rest. pose proof (b2n_lt e). pose proof (b2n_lt f). split; [|split; auto].
      + cbn [flat_map]. unfold six. cbn [addr_octets port be_bytes ip0 ip1 ip2 ip3 app]. change (256 ^ N.of_nat 1)%N with 256%N. change (256 ^ N.of_nat 0)%N with 1%N.
        assert (E1 : n2b ((b2n e * 256 + b2n f) / 256) = e) by (apply b2n_inj; rewrite b2n_n2b; lia).
        assert (E2 : n2b ((b2n e * 256 + b2n f) / 1) = f) by (apply b2n_inj; rewrite b2n_n2b; lia).
        rewrite E1, E2. reflexivity.
      + constructor; auto. unfold wf_addr. cbn [port]. lia. }
  apply (G (length s)). lia.
Qed.
Lemma p_peers_iff : forall v l, p_peers v = Val l <-> Forall wf_addr l /\ exists rest, v = BStr (flat_map six l ++ rest) /\ length rest < 6.
Proof.
  intros v l. split.
  - intro H. destruct v as [z|s|x|x]; try discriminate. destruct (split6 s) as (l' & rest & -> & W & R).
    rewrite peers_read in H by auto. injection H as <-. split; auto. exists rest. auto.
  - intros (W & rest & -> & R). apply peers_read; auto.
Qed.

(** ** the dictionary *)
Definition entries_spec (d : list (bytes * bval)) (w w' : raw_response) : Prop :=
  fval p_string (str "warning message") d (w_warning w) (w_warning w') /\
  fval (p_uint u64_max) (str "interval") d (w_interval w) (w_interval w') /\
  fval (p_uint u64_max) (str "min interval") d (w_min_interval w) (w_min_interval w') /\
  fval p_string (str "tracker id") d (w_tracker_id w) (w_tracker_id w') /\
  fval (p_uint u64_max) (str "complete") d (w_complete w) (w_complete w') /\
  fval (p_uint u64_max) (str "incomplete") d (w_incomplete w) (w_incomplete w') /\
  fval p_peers (str "peers") d (w_peers w) (w_peers w').
Ltac ne := let H := fresh in intro H; discriminate H.
Lemma entries_iff : forall d w w', NoDup (map fst d) -> (response_entries w d = Val w' <-> entries_spec d w w').
Proof.
  induction d as [|[k v] d IH]; intros w w' ND.
  - unfold entries_spec, fval. cbn [lookup response_entries]. destruct w, w'; cbn. split; [intro H; injection H as <- <- <- <- <- <- <-; auto 10|].
    intros (-> & -> & -> & -> & -> & -> & ->). reflexivity.
  - cbn [map fst] in ND. inversion ND as [|? ? NI ND']; subst. cbn [response_entries].
    destruct w as [a b c e f g h], w' as [a' b' c' e' f' g' h'].
    assert (HIT : forall A (p : bval -> res A) K (upd : A -> raw_response) , response_entry (mk_raw a b c e f g h) K v = rmap upd (p v) ->
      ~ In K (map fst d) -> forall Q, (forall x, entries_spec d (upd x) (mk_raw a' b' c' e' f' g' h') <-> Q x) ->
      (rbind (response_entry (mk_raw a b c e f g h) K v) (fun w => response_entries w d) = Val (mk_raw a' b' c' e' f' g' h') <-> exists x, p v = Val x /\ Q x)).
    { intros A p K upd R NK Q HQ. rewrite R. destruct (p v) as [x| |]; cbn [rmap rbind].
      - rewrite IH by auto. rewrite HQ. split; [intro; exists x; auto|]. intros (y & Y & Z). injection Y as ->. auto.
      - split; [discriminate|]. intros (y & Y & _). discriminate.
      - split; [discriminate|]. intros (y & Y & _). discriminate. }
    unfold entries_spec in *. cbn [w_warning w_interval w_min_interval w_tracker_id w_complete w_incomplete w_peers] in *.
    Ltac field_case K HIT NI P U :=
      rewrite (@HIT _ P K U eq_refl NI _ (fun x => iff_refl _)); rewrite ?fval_hit;
      repeat match goal with |- context [fval ?p ?k ((K, ?v) :: ?t) ?o ?n] => rewrite (@fval_miss _ p k K v t o n) by ne end;
      cbn [w_warning w_interval w_min_interval w_tracker_id w_complete w_incomplete w_peers];
      let Q := fresh "Q" in let x := fresh "x" in let X := fresh "X" in
      split; [intros (x & X & Q); rewrite (@fval_absent _ _ _ _ _ _ NI) in Q; decompose [and] Q; repeat split; eauto
             |intro Q; decompose [and] Q; match goal with H : exists _, _ |- _ => destruct H as (x & X & ?) end; exists x; split; [exact X|]; rewrite (@fval_absent _ _ _ _ _ _ NI); repeat split; auto].
    destruct (bytes_eq_dec k (str "warning message")) as [->|N1]; [field_case (str "warning message") HIT NI p_string (fun x => mk_raw (Some x) b c e f g h)|].
    destruct (bytes_eq_dec k (str "interval")) as [->|N2]; [field_case (str "interval") HIT NI (p_uint u64_max) (fun x => mk_raw a (Some x) c e f g h)|].
    destruct (bytes_eq_dec k (str "min interval")) as [->|N3]; [field_case (str "min interval") HIT NI (p_uint u64_max) (fun x => mk_raw a b (Some x) e f g h)|].
    destruct (bytes_eq_dec k (str "tracker id")) as [->|N4]; [field_case (str "tracker id") HIT NI p_string (fun x => mk_raw a b c (Some x) f g h)|].
    destruct (bytes_eq_dec k (str "complete")) as [->|N5]; [field_case (str "complete") HIT NI (p_uint u64_max) (fun x => mk_raw a b c e (Some x) g h)|].
    destruct (bytes_eq_dec k (str "incomplete")) as [->|N6]; [field_case (str "incomplete") HIT NI (p_uint u64_max) (fun x => mk_raw a b c e f (Some x) h)|].
    destruct (bytes_eq_dec k (str "peers")) as [->|N7]; [field_case (str "peers") HIT NI p_peers (fun x => mk_raw a b c e f g (Some x))|].
    rewrite !fval_miss by auto. unfold response_entry. apply bytes_eqb_neq in N1, N2, N3, N4, N5, N6, N7.
    rewrite N1, N2, N3, N4, N5, N6, N7. cbn [rbind]. apply IH. auto.
Qed.
Lemma p_string_np : forall v, p_string v <> Panic.
Proof. intros [z|s|l|l]; cbn [p_string]; try discriminate. destruct (utf8_ok s); discriminate. Qed.
Lemma p_uint_np : forall m v, p_uint m v <> Panic.
Proof. intros m [z|s|l|l]; cbn [p_uint]; try discriminate. destruct (_ && _); discriminate. Qed.
Lemma p_peers_np : forall v, p_peers v <> Panic.
Proof. intros [z|s|l|l]; discriminate. Qed.
Lemma rmap_np : forall A B (f : A -> B) x, x <> Panic -> rmap f x <> Panic.
Proof. intros A B f [x| |] H; cbn; congruence. Qed.
Lemma rbind_np : forall A B (x : res A) (f : A -> res B), x <> Panic -> (forall a, f a <> Panic) -> rbind x f <> Panic.
Proof. intros A B [x| |] f H G; cbn; auto; congruence. Qed.
Lemma need_np : forall A (o : option A), need o <> Panic.
Proof. intros A [x|]; discriminate. Qed.
Lemma entries_np : forall d w, response_entries w d <> Panic.
Proof.
  induction d as [|[k v] d IH]; intro w; cbn [response_entries]; [discriminate|]. apply rbind_np; auto.
  unfold response_entry. destruct w. repeat match goal with |- (if ?b then _ else _) <> Panic => destruct b end; try discriminate;
  apply rmap_np; first [apply p_string_np|apply p_uint_np|apply p_peers_np].
Qed.
Lemma decode_response_np : forall v, decode_response v <> Panic.
Proof.
  intros [z|s|l|d]; cbn [decode_response]; try discriminate. apply rbind_np; [apply entries_np|]. intro w.
  repeat (apply rbind_np; [apply need_np|intro]). discriminate.
Qed.
Lemma need_iff : forall A (o : option A) x, need o = Val x <-> o = Some x.
Proof. intros A [y|] x; cbn; split; congruence. Qed.
Lemma rbind_iff : forall A B (x : res A) (f : A -> res B) y, rbind x f = Val y <-> exists a, x = Val a /\ f a = Val y.
Proof.
  intros A B [a| |] f y; cbn; split; try discriminate.
  - intro H. exists a. auto.
  - intros (b & E & F). congruence.
  - intros (b & E & _). discriminate.
  - intros (b & E & _). discriminate.
Qed.
Lemma decode_iff : forall d r, ordered (BDict d) -> (decode_response (BDict d) = Val r <-> says d r).
Proof.
  intros d r O. pose proof (ordered_nodup O) as ND. cbn [decode_response].
  assert (E : rbind (response_entries (mk_raw None None None None None None None) d) (fun w =>
    rbind (need (w_interval w)) (fun i => rbind (need (w_complete w)) (fun c => rbind (need (w_incomplete w)) (fun n => rbind (need (w_peers w)) (fun p =>
    Val (mk_response (w_warning w) i (w_min_interval w) (w_tracker_id w) c n p)))))) = Val r <->
    response_entries (mk_raw None None None None None None None) d =
      Val (mk_raw (r_warning r) (Some (r_interval r)) (r_min_interval r) (r_tracker_id r) (Some (r_complete r)) (Some (r_incomplete r)) (Some (r_peers r)))).
  { split.
    - intro H. apply rbind_iff in H. destruct H as (w & R & H). rewrite R. f_equal. destruct w as [a b c e f g h].
      cbn [w_warning w_interval w_min_interval w_tracker_id w_complete w_incomplete w_peers] in H.
      destruct b as [b|]; [|discriminate]. destruct f as [f|]; [|discriminate]. destruct g as [g|]; [|discriminate]. destruct h as [h|]; [|discriminate].
      cbn in H. injection H as <-. reflexivity.
    - intro H. rewrite H. destruct r. reflexivity. }
  rewrite E, entries_iff by auto. unfold entries_spec. cbn [w_warning w_interval w_min_interval w_tracker_id w_complete w_incomplete w_peers].
  assert (NUM : forall k n, fval (p_uint u64_max) (str k) d None (Some n) <-> number d k n).
  { intros k n. rewrite fval_some by auto. unfold number. split.
    - intros (v & I & P). apply p_uint_iff in P. destruct P as (-> & L). auto.
    - intros (I & L). eexists. split; [exact I|]. apply p_uint_iff. auto. }
  assert (TXT : forall k s, fval p_string (str k) d None (Some s) <-> text d k s).
  { intros k n. rewrite fval_some by auto. unfold text. split.
    - intros (v & I & P). apply p_string_iff in P. destruct P as (-> & L). auto.
    - intros (I & L). eexists. split; [exact I|]. apply p_string_iff. auto. }
  assert (PRS : forall l, fval p_peers (str "peers") d None (Some l) <-> listed d l).
  { intros l. rewrite fval_some by auto. unfold listed. split.
    - intros (v & I & P). apply p_peers_iff in P. destruct P as (W & rest & -> & L). split; auto. exists rest. auto.
    - intros (W & rest & I & L). eexists. split; [exact I|]. apply p_peers_iff. split; auto. exists rest. auto. }
  assert (MN : forall k o, fval (p_uint u64_max) (str k) d None o <-> maybe (number d k) (absent d k) o).
  { intros k [n|]; cbn [maybe]; [apply NUM|]. apply fval_none. }
  assert (MT : forall k o, fval p_string (str k) d None o <-> maybe (text d k) (absent d k) o).
  { intros k [n|]; cbn [maybe]; [apply TXT|]. apply fval_none. }
  rewrite !NUM, PRS, MN, !MT. unfold says. tauto.
Qed.

(** C55: a body is accepted exactly if it starts with a dictionary that says
    what the client then knows. *)
Theorem C55_accepted : forall s r, response_from_body s = Val r <->
  exists d tl, s = enc (BDict d) ++ tl /\ ordered (BDict d) /\ nest (BDict d) <= MAX_DEPTH /\ says d r.
Proof.
  intros s r. unfold response_from_body. split.
  - destruct (decode s) as [[v tl]|] eqn:E; [|discriminate]. intro H. unfold decode in E. apply C39_canonical in E. destruct E as (-> & O & N).
    destruct v as [z|x|x|d]; try discriminate. exists d, tl. repeat (split; [auto; fail|]). apply decode_iff; auto.
  - intros (d & tl & -> & O & N & S). unfold decode. rewrite C39_round_trip by auto. apply decode_iff; auto.
Qed.
(** Peers in order, whatever else the dictionary holds. *)
Theorem C55_peers : forall d tl l rest r, ordered (BDict d) -> nest (BDict d) <= MAX_DEPTH ->
  In (str "peers", BStr (flat_map six l ++ rest)) d -> Forall wf_addr l -> length rest < 6 ->
  response_from_body (enc (BDict d) ++ tl) = Val r -> r_peers r = l.
Proof.
  intros d tl l rest r O N I W R H. apply C55_accepted in H. destruct H as (d' & tl' & E & O' & N' & S).
  destruct (@C39_unique (BDict d) (BDict d') tl tl' O O' E) as (ED & _). injection ED as <-.
  destruct S as (_ & _ & _ & (W' & rest' & I' & R') & _). pose proof (ordered_nodup O) as ND.
  apply lookup_some in I; auto. apply lookup_some in I'; auto. rewrite I in I'. injection I' as X.
  pose proof (@peers_read l rest W R) as P. rewrite X in P. rewrite peers_read in P by auto. congruence.
Qed.
(** A required field is missing, or an answer is not a dictionary: refused,
    never a panic. *)
Theorem C55_missing : forall d tl k, In k ["interval"; "complete"; "incomplete"; "peers"]%string -> absent d k ->
  ordered (BDict d) -> response_from_body (enc (BDict d) ++ tl) = Fail.
Proof.
  intros d tl k K A O. destruct (response_from_body (enc (BDict d) ++ tl)) as [r| |] eqn:E; auto.
  - apply C55_accepted in E. destruct E as (d' & tl' & E & O' & N' & S).
    destruct (@C39_unique (BDict d) (BDict d') tl tl' O O' E) as (ED & _). injection ED as <-. exfalso. apply A.
    destruct S as ((I1 & _) & (I2 & _) & (I3 & _) & (_ & rest & I4 & _) & _).
    destruct K as [<-|[<-|[<-|[<-|[]]]]]; apply in_map_iff;
    [exists (str "interval", BInt (Z.of_N (r_interval r)))|exists (str "complete", BInt (Z.of_N (r_complete r)))
    |exists (str "incomplete", BInt (Z.of_N (r_incomplete r)))|exists (str "peers", BStr (flat_map six (r_peers r) ++ rest))]; auto.
  - exfalso. unfold response_from_body in E. destruct (decode _) as [[v ?]|]; [|discriminate]. exact (decode_response_np v E).
Qed.
Theorem C55_never_panics : forall s, response_from_body s <> Panic.
Proof. intro s. unfold response_from_body. destruct (decode s) as [[v tl]|]; [apply decode_response_np|discriminate]. Qed.
Definition ex55 : list (bytes * bval) :=
  [(str "complete", BInt 5); (str "failure reason", BStr (str "none")); (str "incomplete", BInt 1); (str "interval", BInt 1914);
   (str "peers", BStr (flat_map six [mk_addr x7f x00 x00 x01 6881; mk_addr x0a x00 x00 x02 80] ++ [x01; x02])); (str "tracker id", BStr (str "t"))].
Example C55_example : response_from_body (enc (BDict ex55) ++ str "junk") =
    Val (mk_response None 1914 None (Some (str "t")) 5 1 [mk_addr x7f x00 x00 x01 6881; mk_addr x0a x00 x00 x02 80]) /\
  response_from_body (enc (BDict (removelast ex55))) <> Fail /\ response_from_body (enc (BDict (tl ex55))) = Fail.
Proof. split; [vm_compute; reflexivity|]. split; [vm_compute; discriminate|vm_compute; reflexivity]. Qed.
Print Assumptions C55_accepted.
Print Assumptions C55_peers.
Print Assumptions C55_missing.
Print Assumptions C55_never_panics.
