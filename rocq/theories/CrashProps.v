(** C43: exactly which datagrams abort the DHT task. *)
From Coq Require Import Strings.String.
From Coq Require Import List NArith ZArith Lia Bool Arith.
From Coq Require Import Init.Byte.
From Verif Require Import Base Assoc IdModel WireModel WireProofs TableModel BencodeModel BencodeSpec BencodeProofs BencodeProps KrpcModel Utf8Spec Utf8Proofs KrpcSpec KrpcProofs KrpcProps DhtModel DhtSpec DhtProps CrashSpec.
Import ListNotations.
Set Implicit Arguments.
Local Open Scope list_scope.

(** ** one identifier *)
Inductive id_case (d : list (bytes * bval)) (k : string) : Prop :=
| ic_absent : lookup (str k) d = None -> field d k p_id = Val None -> id_case d k
| ic_fits : forall x, lookup (str k) d = Some (BStr x) -> length x = 20 -> field d k p_id = Val (Some x) -> id_case d k
| ic_misfit : forall x, lookup (str k) d = Some (BStr x) -> length x <> 20 -> field d k p_id = Panic -> id_case d k
| ic_other : forall v, lookup (str k) d = Some v -> (forall x, v <> BStr x) -> field d k p_id = Fail -> id_case d k.
Lemma id_cases : forall d k, id_case d k.
Proof.
  intros d k. destruct (lookup (str k) d) as [v|] eqn:E.
  - destruct v as [z|x|l|l].
    + eapply ic_other; eauto; try discriminate. unfold field. rewrite E. reflexivity.
    + destruct (Nat.eq_dec (length x) 20) as [L|L].
      * eapply ic_fits; eauto. unfold field. rewrite E. cbn [p_id]. unfold id_deserialize. rewrite L. reflexivity.
      * eapply ic_misfit; eauto. unfold field. rewrite E. cbn [p_id]. unfold id_deserialize.
        replace (length x =? ID_LEN) with false by (symmetry; apply Nat.eqb_neq; exact L). reflexivity.
    + eapply ic_other; eauto; try discriminate. unfold field. rewrite E. reflexivity.
    + eapply ic_other; eauto; try discriminate. unfold field. rewrite E. reflexivity.
  - apply ic_absent; auto. unfold field. rewrite E. reflexivity.
Qed.
Ltac nofit := match goal with
  | H : misfit _ _ |- _ => destruct H as (? & ? & ?); congruence
  | H : fits _ _ |- _ => destruct H as (? & ? & ?); congruence end.

(** ** the arguments of a query *)
Lemma port_cases : forall a, (exists z, lookup (str "port") a = Some (BInt z) /\ (0 <= z <= 65535)%Z /\ field a "port" (p_uint 65535) = Val (Some (Z.to_N z))) \/
  (field a "port" (p_uint 65535) = Val None \/ field a "port" (p_uint 65535) = Fail) /\ ~ exists z, lookup (str "port") a = Some (BInt z) /\ (0 <= z <= 65535)%Z.
Proof.
  intro a. unfold field. destruct (lookup (str "port") a) as [[z|x|l|l]|] eqn:E; try (right; split; [cbn; auto|intros (z' & X & _); congruence]).
  cbn [p_uint rmap]. destruct ((0 <=? z)%Z && (z <=? Z.of_N 65535)%Z) eqn:R.
  - left. exists z. apply andb_true_iff in R as [R1 R2]. apply Z.leb_le in R1, R2. split; [reflexivity|]. split; [lia|reflexivity].
  - right. split; [cbn; auto|]. intros (z' & X & R'). injection X as <-. apply andb_false_iff in R as [R|R]; apply Z.leb_gt in R; lia.
Qed.
Lemma buf_cases : forall a k, (exists t, lookup (str k) a = Some (BStr t) /\ field a k p_buf = Val (Some t)) \/
  (field a k p_buf = Val None \/ field a k p_buf = Fail) /\ ~ exists t, lookup (str k) a = Some (BStr t).
Proof.
  intros a k. unfold field. destruct (lookup (str k) a) as [[z|x|l|l]|] eqn:E; try (right; split; [cbn; auto|intros (t & X); congruence]).
  left. exists x. split; auto.
Qed.
Ltac go := cbn [rbind rmap need orelse].
(** The four forms of arguments. *)
Definition as_announce (d : list (bytes * bval)) : res args :=
  let? id := field d "id" p_id in let? ih := field d "info_hash" p_id in
  let? p := field d "port" (p_uint 65535) in let? t := field d "token" p_buf in
  let? id := need id in let? ih := need ih in let? p := need p in let? t := need t in Val (AAnnounce id ih p t).
Definition as_find (d : list (bytes * bval)) : res args :=
  let? id := field d "id" p_id in let? tg := field d "target" p_id in let? id := need id in let? tg := need tg in Val (AFindNode id tg).
Definition as_get (d : list (bytes * bval)) : res args :=
  let? id := field d "id" p_id in let? ih := field d "info_hash" p_id in let? id := need id in let? ih := need ih in Val (AGetPeers id ih).
Definition as_ping (d : list (bytes * bval)) : res args :=
  let? id := field d "id" p_id in let? id := need id in Val (APing id).
(** What the first form of arguments, the announcement, comes to. *)
Lemma announce_form : forall a id ih, field a "id" p_id = Val id -> field a "info_hash" p_id = Val ih ->
  (exists x, as_announce a = Val x /\ announcement a) \/ (as_announce a = Fail /\ ~ announcement a).
Proof.
  intros a id ih F1 F2. unfold as_announce.
  destruct (id_cases a "id") as [I1 I2|x1 I1 I2 I3|x1 I1 I2 I3|v1 I1 I2 I3]; rewrite F1 in *; try congruence; (injection I2 as -> || injection I3 as ->);
  (destruct (id_cases a "info_hash") as [J1 J2|x2 J1 J2 J3|x2 J1 J2 J3|v2 J1 J2 J3]; rewrite F2 in *; try congruence; (injection J2 as -> || injection J3 as ->));
  (destruct (port_cases a) as [(z & P1 & P2 & P3)|([P1|P1] & P2)]; [rewrite ?P3|rewrite ?P1|rewrite ?P1]; go);
  (destruct (buf_cases a "token") as [(t & T1 & T2)|([T1|T1] & T2)]; [rewrite ?T2|rewrite ?T1|rewrite ?T1]; go);
  try (right; split; [reflexivity|]; intros ((y1 & A1 & A2) & (y2 & B1 & B2) & PP & TT); (congruence || (apply P2; exact PP) || (apply T2; exact TT)));
  left; eexists; (split; [reflexivity|]); (split; [exists x1; auto|]); (split; [exists x2; auto|]); (split; [exists z; auto|exists t; auto]).
Qed.
Lemma args_cases : forall a, (p_args (BDict a) = Panic /\ deadly_args a) \/ (~ deadly_args a /\
  ((exists x, p_args (BDict a) = Val x /\ fits a "id") \/ (p_args (BDict a) = Fail /\ ~ fits a "id"))).
Proof.
  intro a. change (p_args (BDict a)) with (orelse (as_announce a) (orelse (as_find a) (orelse (as_get a) (as_ping a)))).
  destruct (id_cases a "id") as [I1 I2|x1 I1 L1 I2|x1 I1 L1 I2|v1 I1 L1 I2].
  3: { left. split; [|left; exists x1; auto]. unfold as_announce. rewrite I2. reflexivity. }
  3: { right. split; [intros [(y & A & _)|([(y & A & _)|A] & _)]; congruence|]. right. split; [|intros (y & A & _); congruence].
       unfold as_announce, as_find, as_get, as_ping. rewrite I2. reflexivity. }
  - (* no id *) assert (NF : ~ fits a "id") by (intros (y & A & _); congruence). assert (NM : ~ misfit a "id") by (intros (y & A & _); congruence).
    assert (NA : ~ announcement a) by (intros (X & _); contradiction).
    assert (EP : as_ping a = Fail) by (unfold as_ping; rewrite I2; reflexivity). rewrite EP.
    destruct (id_cases a "info_hash") as [J1 J2|x2 J1 M1 J2|x2 J1 M1 J2|v2 J1 M1 J2].
    3: { left. split; [unfold as_announce; rewrite I2, J2; reflexivity|]. right. split; auto. left. exists x2; auto. }
    all: assert (NI : ~ misfit a "info_hash") by (intros (y & A & B); congruence).
    all: assert (EA : as_announce a = Fail) by
      (first [destruct (@announce_form a _ _ I2 J2) as [(x & _ & X)|[R _]]; [contradiction|exact R]
             |unfold as_announce; rewrite I2, J2; reflexivity]).
    all: assert (EG : as_get a = Fail) by (unfold as_get; rewrite I2, J2; reflexivity).
    all: rewrite EA, EG; go.
    all: destruct (id_cases a "target") as [K1 K2|x3 K1 O1 K2|x3 K1 O1 K2|v3 K1 O1 K2].
    all: assert (EF : as_find a = Panic \/ as_find a = Fail) by (unfold as_find; rewrite I2, K2; auto).
    all: unfold as_find; rewrite I2, K2; go.
    all: try (left; split; [reflexivity|]; right; split; [auto|]; right; split; [exists x3; auto|exact NA]).
    all: right; (split; [intros [X|(_ & [X|[(y & A & B) _]])]; [contradiction|contradiction|congruence]|auto]).
  - (* an id *) assert (FI : fits a "id") by (exists x1; auto). assert (NM : ~ misfit a "id") by (intros (y & A & B); congruence).
    assert (EP : as_ping a = Val (APing x1)) by (unfold as_ping; rewrite I2; reflexivity). rewrite EP.
    destruct (id_cases a "info_hash") as [J1 J2|x2 J1 M1 J2|x2 J1 M1 J2|v2 J1 M1 J2].
    3: { left. split; [unfold as_announce; rewrite I2, J2; reflexivity|]. right. split; auto. left. exists x2; auto. }
    all: assert (NI : ~ misfit a "info_hash") by (intros (y & A & B); congruence).
    all: assert (EA : (exists x, as_announce a = Val x /\ announcement a) \/ (as_announce a = Fail /\ ~ announcement a)) by
      (first [exact (@announce_form a _ _ I2 J2)
             |right; split; [unfold as_announce; rewrite I2, J2; reflexivity|intros (_ & (y & A & _) & _); congruence]]).
    all: destruct EA as [(x & EA & AN)|[EA NA]]; rewrite EA; go.
    all: try (right; split; [intros [X|(_ & [X|[_ X]])]; contradiction|left; eauto]).
    all: destruct (id_cases a "target") as [K1 K2|x3 K1 O1 K2|x3 K1 O1 K2|v3 K1 O1 K2].
    all: unfold as_find, as_get; rewrite I2, K2; go; try (rewrite J2; go).
    all: try (left; split; [reflexivity|]; right; split; [auto|]; right; split; [exists x3; auto|exact NA]).
    all: right; (split; [intros [X|(_ & [X|[(y & A & B) _]])]; [contradiction|contradiction|congruence]|left; eauto]).
Qed.

(** ** a message *)
Lemma type_cases : forall d, (exists y b, lookup (str "y") d = Some (BStr (str y)) /\ In y ["q"; "r"; "e"]%string /\ field d "y" p_type = Val (Some b)) \/
  ((field d "y" p_type = Val None \/ field d "y" p_type = Fail) /\ ~ exists y, lookup (str "y") d = Some (BStr (str y)) /\ In y ["q"; "r"; "e"]%string).
Proof.
  intro d. unfold field. destruct (lookup (str "y") d) as [[z|x|l|l]|] eqn:E; try (right; split; [cbn; auto|intros (y & X & _); congruence]).
  destruct x as [|b [|b' x]].
  - right. split; [cbn; auto|]. intros (y & X & Y). injection X as X. destruct Y as [<-|[<-|[<-|[]]]]; discriminate.
  - cbn [p_type]. destruct (Byte.eqb b x71 || Byte.eqb b x72 || Byte.eqb b x65) eqn:T.
    + left. apply orb_true_iff in T as [T|T]; [apply orb_true_iff in T as [T|T]|]; apply byte_dec_bl in T; subst b.
      * exists "q"%string, x71. repeat split; cbn; auto 6.
      * exists "r"%string, x72. repeat split; cbn; auto 6.
      * exists "e"%string, x65. repeat split; cbn; auto 6.
    + right. split; [cbn; auto|]. intros (y & X & Y). injection X as X. destruct Y as [<-|[<-|[<-|[]]]]; injection X as ->; discriminate.
  - right. split; [cbn; auto|]. intros (y & X & Y). injection X as X. destruct Y as [<-|[<-|[<-|[]]]]; discriminate.
Qed.
Lemma text_cases : forall d k, (exists q, lookup (str k) d = Some (BStr q) /\ utf8 q /\ field d k p_string = Val (Some q)) \/
  ((field d k p_string = Val None \/ field d k p_string = Fail) /\ ~ exists q, lookup (str k) d = Some (BStr q) /\ utf8 q).
Proof.
  intros d k. unfold field. destruct (lookup (str k) d) as [[z|x|l|l]|] eqn:E; try (right; split; [cbn; auto|intros (y & X & _); congruence]).
  cbn [p_string]. destruct (utf8_ok x) eqn:U.
  - left. exists x. split; auto. split; auto. apply utf8_ok_iff. auto.
  - right. split; [cbn; auto|]. intros (q & X & Y). injection X as <-. apply utf8_ok_iff in Y. congruence.
Qed.
(** A message as a query. *)
Definition as_query (d : list (bytes * bval)) : res kmsg :=
  let? a := field d "a" p_args in let? q := field d "q" p_string in
  let? t := field d "t" p_buf in let? y := field d "y" p_type in
  let? t := need t in let? y := need y in let? q := need q in let? a := need a in Val (MQuery t y q a).
Lemma query_cases : forall d, let D := exists a, lookup (str "a") d = Some (BDict a) /\ deadly_args a in
  (as_query d = Panic /\ D) \/ (~ D /\ ((exists m, as_query d = Val m /\ understood d) \/ (as_query d = Fail /\ ~ understood d))).
Proof.
  intro d. cbv zeta. unfold as_query. destruct (lookup (str "a") d) as [[z|x|l|a]|] eqn:E;
    try (assert (F : field d "a" p_args = Fail) by (unfold field; rewrite E; reflexivity); rewrite F; go; right; split; [intros (y & X & _); congruence|]; right; split; auto; intros (y & q & t & k & X & _); congruence).
  - destruct (args_cases a) as [[P D]|[ND C]].
    + assert (F : field d "a" p_args = Panic) by (unfold field; rewrite E, P; reflexivity). rewrite F. go. left. split; auto. exists a; auto.
    + right. split. { intros (y & X & Y). assert (y = a) by congruence. subst y. contradiction. }
      destruct C as [(x & P & FI)|(P & NF)].
      * assert (F : field d "a" p_args = Val (Some x)) by (unfold field; rewrite E, P; reflexivity). rewrite F. go.
        destruct (text_cases d "q") as [(q & Q1 & Q2 & Q3)|([Q1|Q1] & Q2)]; [rewrite ?Q3|rewrite ?Q1|rewrite ?Q1]; go;
        (destruct (buf_cases d "t") as [(t & T1 & T2)|([T1|T1] & T2)]; [rewrite ?T2|rewrite ?T1|rewrite ?T1]; go);
        (destruct (type_cases d) as [(y & b & Y1 & Y2 & Y3)|([Y1|Y1] & Y2)]; [rewrite ?Y3|rewrite ?Y1|rewrite ?Y1]; go);
        try (right; split; [reflexivity|]; intros (a' & q' & t' & y' & _ & _ & _ & U1 & U2 & U3 & U4 & U5); (first [apply Q2|apply T2|apply Y2]; eauto));
        left; eexists; (split; [reflexivity|]); exists a, q, t, y; auto 10.
      * assert (F : field d "a" p_args = Fail) by (unfold field; rewrite E, P; reflexivity). rewrite F. go. right. split; auto.
        intros (a' & q' & t' & y' & X & Y & _). assert (a' = a) by congruence. subst a'. contradiction.
  - assert (F : field d "a" p_args = Val None) by (unfold field; rewrite E; reflexivity). rewrite F. go. right. split; [intros (y & X & _); congruence|].
    right. split; [|intros (y & q & t & k & X & _); congruence].
    destruct (text_cases d "q") as [(q & Q1 & Q2 & Q3)|([Q1|Q1] & Q2)]; [rewrite ?Q3|rewrite ?Q1|rewrite ?Q1]; go; auto;
    (destruct (buf_cases d "t") as [(t & T1 & T2)|([T1|T1] & T2)]; [rewrite ?T2|rewrite ?T1|rewrite ?T1]; go; auto);
    (destruct (type_cases d) as [(y & b & Y1 & Y2 & Y3)|([Y1|Y1] & Y2)]; [rewrite ?Y3|rewrite ?Y1|rewrite ?Y1]; go; auto).
Qed.
Ltac safe_step := first
  [ apply safe_need
  | match goal with |- safe (rbind (field _ _ _) _) => apply safe_bind; [apply safe_field; intros; (apply safe_buf || apply safe_type || apply safe_errs)|intro] end
  | match goal with |- safe (rbind _ _) => apply safe_bind; [|intro] end
  | discriminate ].
Lemma resp_panics : forall v, p_resp v = Panic <-> exists r, v = BDict r /\ misfit r "id".
Proof.
  intro v. destruct v as [z|x|l|r]; try (split; [discriminate|intros (r & X & _); discriminate]). split.
  - intro P. exists r. split; auto. destruct (id_cases r "id") as [I1 I2|x1 I1 L1 I2|x1 I1 L1 I2|v1 I1 I2 I3]; [exfalso|exfalso|exists x1; auto|exfalso];
      assert (S : safe (p_resp (BDict r))); try exact (S P).
    + unfold p_resp. assert (H : dict_ids (BDict r) \/ True) by auto. rewrite I2. go.
      assert (SB : safe (field r "token" p_buf)) by (apply safe_field; intros; apply safe_buf).
      assert (SN : safe (field r "nodes" p_nodes)) by (apply safe_field; intros; apply safe_nodes).
      unfold safe in *. destruct (field r "token" p_buf); [| |congruence]; go; (destruct (field r "nodes" p_nodes); [| |congruence]; go; discriminate).
    + unfold p_resp. rewrite I2. go.
      assert (SB : safe (field r "token" p_buf)) by (apply safe_field; intros; apply safe_buf).
      assert (SN : safe (field r "nodes" p_nodes)) by (apply safe_field; intros; apply safe_nodes).
      pose proof (safe_von r) as SV. unfold safe in *.
      destruct (field r "token" p_buf) as [[t|]| |]; [| | |congruence]; go;
        try (destruct (p_von r); [| |congruence]; go; try discriminate);
        (destruct (field r "nodes" p_nodes) as [[n|]| |]; [| | |congruence]; go; discriminate).
    + unfold p_resp. rewrite I3. go. discriminate.
  - intros (r' & X & (x & A & B)). injection X as <-. destruct (id_cases r "id") as [I1 I2|x1 I1 L1 I2|x1 I1 L1 I2|v1 I1 I2 I3]; try congruence.
    unfold p_resp. rewrite I2. reflexivity.
Qed.
Lemma kmsg_panics : forall v, p_kmsg v = Panic <-> deadly v.
Proof.
  intro v. destruct v as [z|x|l|d]; try (split; [discriminate|intros (d & X & _); discriminate]).
  change (p_kmsg (BDict d)) with (orelse (as_query d)
   (orelse (let? r := field d "r" p_resp in let? t := field d "t" p_buf in let? y := field d "y" p_type in
            let? t := need t in let? y := need y in let? r := need r in Val (MResp t y r))
           (let? e := field d "e" (p_list p_error) in let? t := field d "t" p_buf in let? y := field d "y" p_type in
            let? t := need t in let? y := need y in let? e := need e in Val (MError t y e)))).
  assert (SE : safe (let? e := field d "e" (p_list p_error) in let? t := field d "t" p_buf in let? y := field d "y" p_type in
            let? t := need t in let? y := need y in let? e := need e in Val (MError t y e))) by repeat safe_step.
  destruct (query_cases d) as [[P D]|[ND [(m & P & U)|[P NU]]]]; rewrite P; go.
  - split; auto. intros _. exists d. auto.
  - split; [discriminate|]. intros (d' & X & [Y|(r & _ & _ & Y)]); injection X as <-; contradiction.
  - assert (R : field d "r" p_resp = Panic <-> exists r, lookup (str "r") d = Some (BDict r) /\ misfit r "id").
    { unfold field. destruct (lookup (str "r") d) as [v|].
      - pose proof (resp_panics v) as RP. split.
        + intro H. destruct (p_resp v) eqn:Q; try discriminate. destruct (proj1 RP eq_refl) as (r & -> & M). eauto.
        + intros (r & X & M). injection X as ->. rewrite (proj2 RP); eauto.
      - split; [discriminate|]. intros (r & X & _). discriminate. }
    split.
    + intro H. exists d. split; auto. right.
      assert (R' : field d "r" p_resp = Panic).
      { destruct (field d "r" p_resp) as [r| |]; auto; exfalso; revert H; go.
        - assert (S2 : safe (let? t := field d "t" p_buf in let? y := field d "y" p_type in let? t := need t in let? y := need y in let? r := need r in Val (MResp t y r))) by repeat safe_step.
          unfold safe in *. destruct (let? t := field d "t" p_buf in _); cbn [orelse]; congruence.
        - exact SE. }
      apply R in R'. destruct R' as (r & A & B). exists r. auto.
    + intros (d' & X & [Y|(r & A & B & _)]); injection X as <-; [contradiction|]. rewrite (proj2 R); eauto.
Qed.

(** ** C43 *)
(** With the tasks behind the channels there, exactly the datagrams from IPv4
    senders that leave a deadly message in the buffer abort the task. *)
Theorem C43_exact : forall sha e s buf from dg, e_listener e = true -> (forall r, e_alive e r = true) ->
  (on_datagram sha e s buf from dg = Panic <->
   from <> None /\ exists v tl, decode (recv_into buf dg) = Some (v, tl) /\ ints_ok v = true /\ deadly v).
Proof.
  intros sha e s buf from dg L A. unfold on_datagram. destruct from as [a|]; [|split; [discriminate|intros [X _]; congruence]].
  unfold kmsg_from_bytes. destruct (decode (recv_into buf dg)) as [[v tl]|] eqn:E; [|split; [discriminate|intros (_ & v & tl & X & _); discriminate]].
  destruct (ints_ok v) eqn:O; [|split; [discriminate|intros (_ & v' & tl' & X & Y & _); congruence]].
  pose proof (kmsg_panics v) as K. split.
  - intro H. split; [discriminate|]. exists v, tl. split; auto. split; auto. apply K. destruct (p_kmsg v) as [m| |]; auto; [|discriminate].
    destruct (@dstep_total sha e s (EIn a m) L A) as (s' & o & D). rewrite D in H. discriminate.
  - intros (_ & v' & tl' & X & _ & D). injection X as <- <-. rewrite (proj2 K D). reflexivity.
Qed.
Print Assumptions C43_exact.

(** Concrete messages of each kind. *)
Definition twenty : bytes := repeat x41 20.
Definition a_query (a : list (bytes * bval)) : bval :=
  BDict [(str "a", BDict a); (str "q", BStr (str "find_node")); (str "t", BStr (str "aa")); (str "y", BStr (str "q"))].
Definition an_answer (r : list (bytes * bval)) : list (bytes * bval) :=
  [(str "r", BDict r); (str "t", BStr (str "aa")); (str "y", BStr (str "r"))].
Definition announcing : list (bytes * bval) :=
  [(str "id", BStr twenty); (str "info_hash", BStr twenty); (str "port", BInt 6881); (str "target", BStr []); (str "token", BStr [])].
Example C43_deadly_example :
  (* a target of no bytes *)
  deadly (a_query [(str "id", BStr twenty); (str "target", BStr [])]) /\
  (* the same beside everything an announcement needs *)
  ~ deadly (a_query announcing) /\
  (* ... or beside an id that is no string *)
  ~ deadly (a_query [(str "id", BInt 0); (str "target", BStr [])]) /\
  (* an answer, not asked for *)
  deadly (BDict (an_answer [(str "id", BStr [])])) /\
  (* the same answer in an understood query *)
  ~ deadly (BDict ((str "a", BDict announcing) :: (str "q", BStr []) :: an_answer [(str "id", BStr [])])).
Proof.
  assert (forall v, deadly v <-> p_kmsg v = Panic) as K by (intro v; symmetry; apply kmsg_panics).
  repeat split; rewrite K; (reflexivity || discriminate).
Qed.
(** On the wire, whatever the buffer holds. *)
Example C43_exact_example : forall sha e s buf, e_listener e = true -> (forall r, e_alive e r = true) ->
  on_datagram sha e s buf (Some (mk_addr x00 x00 x00 x00 0%N)) (enc (BDict (an_answer [(str "id", BStr [])]))) = Panic /\
  on_datagram sha e s buf None (enc (BDict (an_answer [(str "id", BStr [])]))) <> Panic.
Proof.
  intros sha e s buf L A. split.
  - apply C43_exact; auto. split; [discriminate|]. exists (BDict (an_answer [(str "id", BStr [])])).
    eexists. split; [|split; [reflexivity|apply kmsg_panics; reflexivity]].
    rewrite recv_short by (apply Nat.leb_le; reflexivity). apply decode_enc.
    + apply wire_dict; [reflexivity|]. cbn -[wire_ok]. repeat apply Forall_cons; try apply Forall_nil; try apply wire_str.
      apply wire_dict; [reflexivity|]. cbn -[wire_ok]. repeat apply Forall_cons; try apply Forall_nil. apply wire_str.
    + pose proof depth3. cbn. lia.
  - rewrite C43_exact by auto. intros [X _]. congruence.
Qed.
