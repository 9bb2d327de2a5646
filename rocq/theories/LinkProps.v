(** Properties C111-C113: one connection from connect to end *)
From Coq Require Import List NArith ZArith Lia Bool Arith.
From Verif Require Import Base IdModel WireModel WireSpec WireProofs WireProps LinkModel LinkSpec.
Import ListNotations.
Set Implicit Arguments.

Lemma said_app : forall a b, said (a ++ b) = said a ++ said b.
Proof. intros. apply flat_map_app. Qed.
Lemma passed_app : forall a b, passed_on (a ++ b) = passed_on a ++ passed_on b.
Proof. intros. apply flat_map_app. Qed.
Lemma queued_app : forall a b, queued (a ++ b) = queued a ++ queued b.
Proof. intros. apply flat_map_app. Qed.
Lemma heard_app : forall a b, heard (a ++ b) = heard a ++ heard b.
Proof. intros. apply flat_map_app. Qed.
Lemma reads_app : forall a b, reads (a ++ b) = reads a ++ reads b.
Proof. intros. apply flat_map_app. Qed.
Lemma said_deliver : forall l, said (map ODeliver l) = [].
Proof. induction l; auto. Qed.
Lemma passed_deliver : forall l, passed_on (map ODeliver l) = l.
Proof. induction l; cbn; f_equal; auto. Qed.
Lemma frame_cons : forall m, exists b l, bep3_frame m = b :: l.
Proof. intro m. unfold bep3_frame. cbn [be_bytes app]. eauto. Qed.

Lemma app_split_len : forall A (a b c d : list A), length a = length c -> a ++ b = c ++ d -> a = c /\ b = d.
Proof.
  induction a as [|x a IH]; intros b [|y c] d L E; cbn in *; try discriminate; auto.
  injection E as -> E. destruct (IH b c d) as [-> ->]; auto.
Qed.

Section Runs.
Variables (ih pid : ID) (peer : addr).
Hypothesis (W1 : wf_id ih) (W2 : wf_id pid).
Notation step := (link_step ih pid peer).
Notation run := (link_run ih pid peer).

Lemma hello_bytes : handshake_bytes ih pid = hello ih pid.
Proof. apply C18_handshake_partial; auto. Qed.
Lemma hello_len : length (hello ih pid) = 68.
Proof. rewrite <- hello_bytes. apply C18_handshake_partial; auto. Qed.

Lemma run_snoc : forall es s e s2 o2, run s (es ++ [e]) = Some (s2, o2) ->
  exists s1 o1 o, run s es = Some (s1, o1) /\ step s1 e = Some (s2, o) /\ o2 = o1 ++ o.
Proof.
  induction es as [|x es IH]; intros s e s2 o2 H; cbn [app link_run] in H |- *.
  - destruct (step s e) as [[s' o]|] eqn:E; [|discriminate]. injection H as <- <-. exists s, [], o.
    rewrite app_nil_r. auto.
  - destruct (step s x) as [[s' o]|] eqn:E; [|discriminate].
    destruct (run s' (es ++ [e])) as [[s3 o3]|] eqn:F; [|discriminate]. injection H as <- <-.
    destruct (IH _ _ _ _ F) as (s1 & o1 & o4 & A & B & ->). exists s1, (o ++ o1), o4. rewrite A. rewrite app_assoc. auto.
Qed.
Lemma run_app : forall a b s s1 o1 s2 o2, run s a = Some (s1, o1) -> run s1 b = Some (s2, o2) -> run s (a ++ b) = Some (s2, o1 ++ o2).
Proof.
  induction a as [|x a IH]; intros b s s1 o1 s2 o2 H G; cbn [app link_run] in *.
  - injection H as <- <-. auto.
  - destruct (step s x) as [[s' o]|]; [|discriminate]. destruct (run s' a) as [[s3 o3]|] eqn:F; [|discriminate].
    injection H as <- <-. rewrite (IH _ _ _ _ _ _ F G). rewrite app_assoc. auto.
Qed.

(** What has been written, whatever fails. *)
Definition wrote (h : list levent) (s : link) (os : list loutput) : Prop :=
  match l_phase s with
  | LConnect => said os = [] /\ l_queue s = queued h
  | LHello rest => rest <> [] /\ said os ++ rest = hello ih pid /\ l_queue s = queued h
  | LReply => said os = hello ih pid /\ l_queue s = queued h
  | LUp r cur => exists sent b m a, queued h = sent ++ m ++ l_queue s /\ said os = hello ih pid ++ b ++ a /\ torn sent b /\
      (~ write_fails h -> b = stream_of sent) /\
      match m with [] => a = [] /\ cur = [] | [x] => cur <> [] /\ bep3_frame x = a ++ cur | _ => False end
  | LEnd => (exists ms b, is_prefix ms (queued h) /\ said os = hello ih pid ++ b /\ torn ms b /\
      (~ write_fails h -> is_prefix b (stream_of (queued h)))) \/ is_prefix (said os) (hello ih pid)
  end.

Lemma torn_snoc : forall ms b m a, torn ms b -> is_prefix a (bep3_frame m) -> torn (ms ++ [m]) (b ++ a).
Proof.
  intros ms b m a H P. induction H.
  - change (torn [m] a). rewrite <- (app_nil_r a). constructor; [auto|constructor].
  - cbn [app]. rewrite <- app_assoc. constructor; auto.
Qed.
Lemma whole_torn : forall ms, torn ms (stream_of ms).
Proof. induction ms; [constructor|]. cbn [stream_of flat_map]. constructor; auto. exists []. rewrite app_nil_r. auto. Qed.
Lemma stream_snoc : forall ms m, stream_of (ms ++ [m]) = stream_of ms ++ bep3_frame m.
Proof. intros. unfold stream_of. rewrite flat_map_app. cbn. rewrite app_nil_r. auto. Qed.
Lemma fails_app : forall a b, write_fails (a ++ b) <-> write_fails a \/ write_fails b.
Proof. intros. apply in_app_iff. Qed.

(** The end of a task that was up. *)
Lemma wrote_end : forall h s os r cur, l_phase s = LUp r cur -> wrote h s os ->
  exists ms b, is_prefix ms (queued h) /\ said os = hello ih pid ++ b /\ torn ms b /\
    (~ write_fails h -> is_prefix b (stream_of (queued h))).
Proof.
  intros h s os r cur P H. unfold wrote in H. rewrite P in H. destruct H as (sent & b & m & a & Q & S & T & NF & M).
  destruct m as [|x [|]]; [|clear P|contradiction].
  - destruct M as [-> ->]. rewrite app_nil_r in S. exists sent, b. split; [exists (l_queue s); auto|]. split; auto. split; auto.
    intro F. rewrite (NF F), Q. exists (stream_of (l_queue s)). cbn [app]. apply stream_of_app.
  - destruct M as [M1 M2]. exists (sent ++ [x]), (b ++ a). split; [exists (l_queue s); rewrite <- app_assoc; auto|]. split; auto.
    split. { apply torn_snoc; auto. exists cur. auto. }
    intro F. rewrite (NF F), Q. exists (cur ++ stream_of (l_queue s)). rewrite !stream_of_app. unfold stream_of at 2 4. cbn [flat_map].
    unfold enc. rewrite M2, <- !app_assoc. cbn [app]. auto.
Qed.

Lemma wrote_ok : forall h s os, Forall wf_msg (queued h) -> run link_start h = Some (s, os) -> wrote h s os.
Proof.
  induction h as [|e h IH] using rev_ind; intros s os WQ R.
  - injection R as <- <-. split; reflexivity.
  - destruct (run_snoc _ _ _ R) as (s1 & o1 & o & R1 & S & ->). rewrite queued_app in WQ. apply Forall_app in WQ as [WQ WE].
    specialize (IH _ _ WQ R1). clear R R1.
    assert (K : forall ph', l_phase s1 = ph' -> match e with EQueue _ => False | _ => True end -> queued (h ++ [e]) = queued h).
    { intros. rewrite queued_app. destruct e; try contradiction; cbn; apply app_nil_r. }
    destruct (l_phase s1) as [|rest| |r cur|] eqn:P; [| | | |].
    + unfold wrote in IH. rewrite P in IH. destruct IH as [A B]. unfold link_step in S. rewrite P in S.
      destruct e; try discriminate; injection S as <- <-; unfold wrote; cbn [l_phase l_queue]; rewrite ?said_app, A.
      * rewrite queued_app, B. auto.
      * rewrite (K _ eq_refl I). rewrite hello_bytes. split; [discriminate|]. auto.
      * right. exists (hello ih pid). auto.
    + unfold wrote in IH. rewrite P in IH. destruct IH as (A & B & C). unfold link_step in S. rewrite P in S.
      destruct e; try discriminate.
      * injection S as <- <-. unfold wrote. cbn [l_phase l_queue]. rewrite said_app, queued_app, C. cbn [said flat_map]. rewrite app_nil_r. auto.
      * destruct (_ && _) eqn:G; [|discriminate]. injection S as <- <-. apply andb_true_iff in G as [G1 G2].
        apply Nat.leb_le in G1, G2.
        destruct (Nat.eqb_spec k (length rest)) as [->|N]; unfold wrote; cbn [l_phase l_queue]; rewrite said_app, (K _ eq_refl I); cbn [said flat_map]; rewrite app_nil_r.
        -- rewrite firstn_all. auto.
        -- split. { intro Z. apply (f_equal (@length _)) in Z. rewrite skipn_length in Z. cbn in Z. lia. }
           rewrite <- app_assoc, firstn_skipn. auto.
      * injection S as <- <-. right. rewrite said_app. cbn [said flat_map unreachable]. rewrite app_nil_r. exists rest. auto.
    + unfold wrote in IH. rewrite P in IH. destruct IH as (B & C). unfold link_step in S. rewrite P in S.
      destruct e; try discriminate.
      * injection S as <- <-. unfold wrote. cbn [l_phase l_queue]. rewrite said_app, queued_app, C. cbn [said flat_map]. rewrite app_nil_r. auto.
      * destruct (_ <=? _); [|discriminate]. destruct (initiate_handshake c); injection S as <- <-; unfold wrote; cbn [l_phase l_queue];
          rewrite ?said_app, (K _ eq_refl I); cbn [said flat_map unreachable]; rewrite app_nil_r.
        -- exists [], [], [], []. rewrite !app_nil_r. cbn [app]. split; auto. split; auto. split; [constructor|]. auto.
        -- right. rewrite B. exists []. rewrite app_nil_r. auto.
        -- right. rewrite B. exists []. rewrite app_nil_r. auto.
      * injection S as <- <-. right. rewrite said_app. cbn [said flat_map unreachable]. rewrite app_nil_r, B. exists []. rewrite app_nil_r. auto.
    + pose proof (@wrote_end h s1 o1 r cur P IH) as WE'. unfold wrote in IH. rewrite P in IH. destruct IH as (sent & b & m & a & Q & S1 & T & NF & M).
      assert (END : forall q, said o = [] -> match e with EQueue _ => False | _ => True end -> s = mk_link LEnd q -> wrote (h ++ [e]) s (o1 ++ o)).
      { intros q So Ne ->. left. destruct WE' as (ms & b' & A & B & C & D). exists ms, b'. rewrite (K _ eq_refl Ne), said_app, So, app_nil_r.
        split; auto. split; auto. split; auto. intro F. apply D. intro F'. apply F, fails_app. auto. }
      destruct e.
      * (* queue *)
        assert (SS : s = mk_link (LUp r cur) (l_queue s1 ++ [m0]) /\ o = []) by (unfold link_step in S; rewrite P in S; destruct cur; injection S as <- <-; auto).
        destruct SS as [-> ->]. unfold wrote. cbn [l_phase l_queue]. exists sent, b, m, a. rewrite queued_app, Q, app_nil_r. change (queued [EQueue m0]) with [m0].
        split. { rewrite <- !app_assoc. auto. } split; auto. split; auto. split; auto. intro F. apply NF. intro G. apply F, fails_app. auto.
      * unfold link_step in S. rewrite P in S. destruct cur; discriminate.
      * unfold link_step in S. rewrite P in S. destruct cur; discriminate.
      * (* wrote *)
        unfold link_step in S. rewrite P in S. destruct cur as [|c0 cl]; [discriminate|]. set (cur := c0 :: cl) in *.
        destruct (_ && _) eqn:G; [|discriminate]. injection S as <- <-. apply andb_true_iff in G as [G1 G2].
        apply Nat.leb_le in G1, G2. destruct m as [|x [|]]; [destruct M; discriminate| |contradiction]. destruct M as [M1 M2].
        unfold wrote. cbn [l_phase l_queue]. rewrite (K _ eq_refl I), said_app. unfold said at 2. cbn [flat_map]. rewrite app_nil_r.
        destruct (Nat.eq_dec k (length cur)) as [->|N].
        -- rewrite firstn_all, skipn_all. exists (sent ++ [x]), (b ++ bep3_frame x), [], []. rewrite Q, S1, M2.
           cbn [app]. rewrite !app_nil_r, <- !app_assoc. cbn [app]. split; auto. split; auto. split.
           { rewrite <- M2. apply torn_snoc; auto. exists []. rewrite app_nil_r. auto. }
           split; auto. intro F. rewrite stream_snoc, M2. f_equal. apply NF. intro G. apply F, fails_app. auto.
        -- exists sent, b, [x], (a ++ firstn k cur). rewrite Q, S1, <- !app_assoc. split; auto. split; auto. split; auto.
           split. { intro F. apply NF. intro G. apply F, fails_app. auto. }
           split. { intro Z. apply (f_equal (@length _)) in Z. rewrite skipn_length in Z. cbn [length] in Z. lia. }
           rewrite firstn_skipn. auto.
      * (* write error *)
        unfold link_step in S. rewrite P in S. destruct cur as [|c0 cl]; [discriminate|]. injection S as <- <-.
        destruct m as [|x [|]]; [destruct M; discriminate| |contradiction]. destruct M as [M1 M2].
        unfold wrote. cbn [l_phase l_queue]. rewrite (K _ eq_refl I), app_nil_r. exists (sent ++ [x]), (b ++ a), [], [].
        rewrite Q, S1, !app_nil_r, <- !app_assoc. cbn [app]. split; auto. split; auto. split. { apply torn_snoc; auto. exists (c0 :: cl). auto. }
        split; auto. intro F. exfalso. apply F, fails_app. right. left. auto.
      * (* read *)
        unfold link_step in S. rewrite P in S.
        assert (SS : (exists r' ms, s = mk_link (LUp r' cur) (l_queue s1) /\ o = map ODeliver ms) \/ s = mk_link LEnd (l_queue s1) /\ o = []).
        { destruct cur; (destruct (_ <=? _); [|discriminate]; destruct (recv_read r c) as [[r' ms]| |]; injection S as <- <-; [left; eauto|right; auto|right; auto]). }
        clear S. destruct SS as [(r' & ms & -> & ->)|[-> ->]]; [|eapply END; eauto; reflexivity].
        unfold wrote. cbn [l_phase l_queue]. rewrite said_app, said_deliver, app_nil_r, (K _ eq_refl I). exists sent, b, m, a. split; auto. split; auto. split; auto.
        split; auto. intro F. apply NF. intro G. apply F, fails_app. auto.
      * unfold link_step in S. rewrite P in S. assert (SS : s = mk_link LEnd (l_queue s1) /\ o = []) by (destruct cur; injection S as <- <-; auto).
        destruct SS as [-> ->]. eapply END; eauto; reflexivity.
      * (* take *)
        unfold link_step in S. rewrite P in S. destruct cur; [|discriminate]. destruct (l_queue s1) as [|y q] eqn:EQ; [discriminate|].
        injection S as <- <-. unfold wrote. cbn [l_phase l_queue]. rewrite (K _ eq_refl I), app_nil_r.
        destruct m as [|x [|]]; [|destruct M; congruence|contradiction]. destruct M as [-> _].
        assert (WY : wf_msg y) by (rewrite Forall_forall in WQ; apply WQ; rewrite Q; apply in_app_iff; right; left; auto).
        exists sent, b, [y], []. rewrite Q. cbn [app]. split; auto. split; auto. split; auto.
        split. { intro F. apply NF. intro G. apply F, fails_app. auto. }
        rewrite into_bytes_bep3 by auto. split; auto. destruct (frame_cons y) as (z & l & ->). discriminate.
      * unfold link_step in S. rewrite P in S. destruct cur; [|discriminate]. destruct (l_queue s1); [|discriminate]. injection S as <- <-.
        eapply END; eauto; reflexivity.
      * unfold link_step in S. rewrite P in S. assert (SS : s = mk_link LEnd (l_queue s1) /\ o = []) by (destruct cur; injection S as <- <-; auto).
        destruct SS as [-> ->]. eapply END; eauto; reflexivity.
    + unfold link_step in S. rewrite P in S. discriminate.
Qed.

(** What has been passed on, whatever happens. *)
Definition told (h : list levent) (s : link) (os : list loutput) : Prop :=
  match l_phase s with
  | LUp r _ => exists reply rs, reads h = reply :: rs /\ initiate_handshake reply = Val tt /\
      forall ms rest, Forall wf_msg ms -> concat rs ++ rest = stream_of ms ->
      exists d t, ms = d ++ t /\ concat rs = stream_of d ++ pending r /\ inv MAX_MESSAGE_BYTES r /\
        incomplete (pending r) t /\ passed_on os = flat_map (handle_message peer) d
  | LEnd => (exists reply rs, reads h = reply :: rs /\ initiate_handshake reply = Val tt /\
      forall ms rest, Forall wf_msg ms -> concat rs ++ rest = stream_of ms ->
      exists d, whole d ms (concat rs) /\ passed_on os = flat_map (handle_message peer) d) \/
      (passed_on os = [ToPeer peer CUnreachable] /\ (reads h = [] \/ exists reply, reads h = [reply] /\ length reply <= 68 /\ initiate_handshake reply <> Val tt))
  | _ => passed_on os = [] /\ reads h = []
  end.

Lemma not_panic : forall c, initiate_handshake c <> Panic.
Proof. intros c H. destruct (proj2 (proj2 C18_handshake_partial) c) as [E|E]; congruence. Qed.

Lemma told_ok : forall h s os, run link_start h = Some (s, os) -> told h s os.
Proof.
  induction h as [|e h IH] using rev_ind; intros s os R.
  - injection R as <- <-. split; reflexivity.
  - destruct (run_snoc _ _ _ R) as (s1 & o1 & o & R1 & S & ->).
    specialize (IH _ _ R1). clear R R1.
    assert (K : match e with ERead _ => False | _ => True end -> reads (h ++ [e]) = reads h).
    { intros. rewrite reads_app. destruct e; try contradiction; cbn; apply app_nil_r. }
    destruct (l_phase s1) as [|rest| |r cur|] eqn:P; [| | | |].
    + unfold told in IH. rewrite P in IH. destruct IH as [A B]. unfold link_step in S. rewrite P in S.
      destruct e; try discriminate; injection S as <- <-; unfold told; cbn [l_phase l_queue]; rewrite ?passed_app, (K I), A, ?B; auto.
    + unfold told in IH. rewrite P in IH. destruct IH as [A B]. unfold link_step in S. rewrite P in S.
      destruct e; try discriminate; try (destruct (_ && _); [|discriminate]); injection S as <- <-; unfold told; cbn [l_phase l_queue];
        try (destruct (k =? length rest)); rewrite ?passed_app, (K I), A, ?B; auto.
    + unfold told in IH. rewrite P in IH. destruct IH as [A B]. unfold link_step in S. rewrite P in S.
      destruct e; try discriminate; try (injection S as <- <-; unfold told; cbn [l_phase l_queue]; rewrite ?passed_app, (K I), A, ?B; auto; fail).
      destruct (_ <=? _) eqn:LE; [|discriminate]. apply Nat.leb_le in LE. assert (RC : reads (h ++ [ERead c]) = [c]) by (rewrite reads_app, B; auto).
      destruct (initiate_handshake c) as [[]| |] eqn:V; injection S as <- <-; unfold told; cbn [l_phase l_queue]; rewrite passed_app, A, RC.
      * exists c, []. split; auto. split; auto. intros ms rest W E. exists [], ms. split; auto. cbn [concat stream_of flat_map app].
        split; auto. split; [apply inv_init|]. split; [apply incomplete_init|]. auto.
      * right. split; auto. right. exists c. rewrite V. split; auto. split; [exact LE|discriminate].
      * exfalso. eapply not_panic; eauto.
    + unfold told in IH. rewrite P in IH. destruct IH as (reply & rs & RD & V & IH).
      assert (END : forall q, passed_on o = [] -> match e with ERead _ => False | _ => True end -> s = mk_link LEnd q -> told (h ++ [e]) s (o1 ++ o)).
      { intros q So Ne ->. left. exists reply, rs. rewrite (K Ne), passed_app, So, app_nil_r. split; auto. split; auto.
        intros ms rest W E. destruct (IH ms rest W E) as (d & t & E1 & E2 & _ & E3 & E4). exists d. split; auto. exists t, (pending r). auto. }
      assert (UP : forall r' c' q, r' = r -> passed_on o = [] -> match e with ERead _ => False | _ => True end -> s = mk_link (LUp r' c') q -> told (h ++ [e]) s (o1 ++ o)).
      { intros r' c' q -> So Ne ->. unfold told. cbn [l_phase]. exists reply, rs. rewrite (K Ne), passed_app, So, app_nil_r. auto. }
      unfold link_step in S. rewrite P in S.
      destruct e; try (destruct cur; try discriminate; try (destruct (l_queue s1); try discriminate); try (destruct (_ && _); try discriminate); injection S as <- <-;
        ((eapply UP; reflexivity) || (eapply END; reflexivity) || (eapply UP; auto; fail) || (eapply END; auto; fail)); fail).
      (* read *)
      assert (SS : length c <= recv_avail r /\ ((exists r' ms, recv_read r c = Val (r', ms) /\ s = mk_link (LUp r' cur) (l_queue s1) /\ o = map ODeliver (flat_map (handle_message peer) ms)) \/
         (forall v, recv_read r c <> Val v) /\ s = mk_link LEnd (l_queue s1) /\ o = [])).
      { destruct cur; (destruct (length c <=? recv_avail r) eqn:G; [|discriminate]; apply Nat.leb_le in G; split; auto;
          destruct (recv_read r c) as [[r' ms]| |]; injection S as <- <-; [left; eauto|right; split; auto; discriminate|right; split; auto; discriminate]). }
      clear S END UP. destruct SS as [LC SS].
      assert (RC : reads (h ++ [ERead c]) = reply :: rs ++ [c]) by (rewrite reads_app, RD; auto).
      assert (NEW : forall ms rest, Forall wf_msg ms -> concat (rs ++ [c]) ++ rest = stream_of ms -> exists d t r' d' t', ms = d ++ t /\ t = d' ++ t' /\
        concat (rs ++ [c]) = stream_of (d ++ d') ++ pending r' /\ recv_read r c = Val (r', d') /\ inv MAX_MESSAGE_BYTES r' /\ incomplete (pending r') t' /\ passed_on o1 = flat_map (handle_message peer) d).
      { intros ms rest W E. rewrite concat_app in E |- *. cbn [concat] in E |- *. rewrite app_nil_r in E |- *. rewrite <- app_assoc in E.
        destruct (IH ms _ W E) as (d & t & -> & E2 & HI & E3 & E4). apply Forall_app in W as [Wd Wt].
        rewrite E2, stream_of_app, <- app_assoc in E. apply app_inv_head in E.
        destruct (@recv_read_spec MAX_MESSAGE_BYTES r c rest t HI Wt LC E) as (r' & d' & t' & F1 & F2 & F3 & F4 & F5).
        exists d, t, r', d', t'. split; auto. split; auto. split; auto.
        rewrite E2, stream_of_app, <- !app_assoc. f_equal. rewrite F3, stream_of_app, <- F5, !app_assoc in E. apply app_inv_tail in E. rewrite <- E, <- ?app_assoc. auto. }
      destruct SS as [(r' & ms & RR & -> & ->)|(NV & -> & ->)]; unfold told; cbn [l_phase].
      * exists reply, (rs ++ [c]). split; auto. split; auto. intros ms' rest W E. destruct (NEW ms' rest W E) as (d & t & r2 & d' & t' & -> & -> & E1 & E2 & E3 & E4 & E5).
        rewrite RR in E2. injection E2 as <- <-. exists (d ++ ms), t'. rewrite <- app_assoc. split; auto. split; auto. split; auto. split; auto.
        rewrite passed_app, passed_deliver, E5, flat_map_app. auto.
      * left. exists reply, (rs ++ [c]). split; auto. split; auto. intros ms' rest W E. destruct (NEW ms' rest W E) as (d & t & r2 & d' & t' & -> & -> & E1 & E2 & _).
        exfalso. eapply NV. eauto.
    + unfold link_step in S. rewrite P in S. discriminate.
Qed.

(** C111. Full statement: the peer is sent the handshake and then the queued
    messages, whole and in order, whatever happens to the connection. Proved
    for every run in which no write fails: what was written is a beginning of
    that, and all of it when there is nothing left to write. *)
Theorem C111_written_partial : forall es s os, Forall wf_msg (queued es) -> run link_start es = Some (s, os) -> ~ write_fails es ->
  is_prefix (said os) (hello ih pid ++ stream_of (queued es)) /\
  (up s -> step s ETake = None -> (forall k, step s (EWrote k) = None) -> said os = hello ih pid ++ stream_of (queued es)).
Proof.
  intros es s os WQ R F. pose proof (@wrote_ok es s os WQ R) as H. split.
  - destruct (l_phase s) as [|rest| |r cur|] eqn:P; try (unfold wrote in H; rewrite P in H).
    + destruct H as [-> _]. eexists. reflexivity.
    + destruct H as (_ & <- & _). exists (rest ++ stream_of (queued es)). rewrite <- app_assoc. auto.
    + destruct H as [-> _]. eexists. reflexivity.
    + destruct (@wrote_end es s os r cur P (@wrote_ok es s os WQ R)) as (ms & b & _ & -> & _ & B). destruct (B F) as [t ->]. exists t. apply app_assoc.
    + destruct H as [(ms & b & _ & -> & _ & B)|[t ->]].
      * destruct (B F) as [t ->]. exists t. apply app_assoc.
      * exists (t ++ stream_of (queued es)). rewrite <- app_assoc. auto.
  - intros U T W. unfold up in U. destruct (l_phase s) as [| | |r cur|] eqn:P; try contradiction. unfold wrote in H. rewrite P in H.
    destruct H as (sent & b & m & a & Q & S & _ & NF & M). destruct cur as [|c0 cl].
    + unfold link_step in T. rewrite P in T. destruct (l_queue s); [|discriminate]. destruct m as [|x [|]]; [|destruct M; congruence|contradiction].
      destruct M as [-> _]. rewrite S, Q, (NF F). cbn [app]. rewrite !app_nil_r. auto.
    + specialize (W 1). unfold link_step in W. rewrite P in W. discriminate.
Qed.
(** And the writing half gets there: it can only go on for so long. *)
Theorem C111_finishes : forall es s os es' s' os', Forall wf_msg (queued es) -> run link_start es = Some (s, os) -> ~ write_fails es -> up s ->
  Forall writing es' -> run s es' = Some (s', os') ->
  up s' /\ length es' <= 2 * (length (hello ih pid ++ stream_of (queued es)) - length (said os)).
Proof.
  intros es s os es' s' os' WQ R F U WE R'. pose proof (@wrote_ok es s os WQ R) as H. unfold up in U.
  destruct (l_phase s) as [| | |r cur|] eqn:P; try contradiction. unfold wrote in H. rewrite P in H.
  destruct H as (sent & b & m & a & Q & S & _ & NF & M).
  assert (G : forall es' s s' os' cur, l_phase s = LUp r cur -> Forall wf_msg (l_queue s) -> Forall writing es' -> run s es' = Some (s', os') ->
    up s' /\ length es' <= 2 * length (stream_of (l_queue s)) + length cur).
  { clear. induction es' as [|e es' IH]; intros s s' os' cur P WQ WE R; cbn [link_run] in R.
    - injection R as <- <-. unfold up. rewrite P. split; auto. cbn. lia.
    - inversion WE as [|? ? We WE']; subst. destruct (step s e) as [[s1 o1]|] eqn:S; [|discriminate]. destruct (run s1 es') as [[s2 o2]|] eqn:R2; [|discriminate].
      injection R as <- <-. unfold link_step in S. rewrite P in S. destruct e; try contradiction.
      + destruct cur as [|c0 cl]; [discriminate|]. destruct (_ && _) eqn:B; [|discriminate]. injection S as <- <-.
        apply andb_true_iff in B as [B1 B2]. apply Nat.leb_le in B1, B2.
        destruct (IH (mk_link (LUp r (skipn k (c0 :: cl))) (l_queue s)) _ _ (skipn k (c0 :: cl)) eq_refl WQ WE' R2) as [A B]. split; auto.
        cbn [l_queue] in B. rewrite skipn_length in B. cbn [length] in *. lia.
      + destruct cur; [|discriminate]. destruct (l_queue s) as [|m q]; [discriminate|]. injection S as <- <-. inversion WQ; subst.
        destruct (IH (mk_link (LUp r (into_bytes m)) q) _ _ (into_bytes m) eq_refl H2 WE' R2) as [A B]. split; auto. cbn [l_queue] in B.
        rewrite into_bytes_bep3 in B by auto. unfold stream_of in *. cbn [flat_map length]. unfold enc at 1. rewrite app_length.
        destruct (frame_cons m) as (z & l & E). rewrite E in *. cbn [length] in *. lia. }
  assert (WL : Forall wf_msg (l_queue s)) by (rewrite Q in WQ; apply Forall_app in WQ as [_ WQ]; apply Forall_app in WQ as [_ WQ]; auto).
  destruct (G _ _ _ _ _ P WL WE R') as [A B]. split; auto.
  rewrite Q, S, (NF F), !stream_of_app, !app_length. destruct m as [|x [|]]; [| |contradiction].
  - destruct M as [-> ->]. cbn [length stream_of flat_map] in *. lia.
  - destruct M as [_ M]. assert (L : length (stream_of [x]) = length a + length cur) by (unfold stream_of; cbn [flat_map]; unfold enc; rewrite app_nil_r, M, app_length; auto).
    lia.
Qed.
(** Whatever fails: the handshake or a beginning of it, then a beginning of
    each message. *)
Theorem C111_torn : forall es s os, Forall wf_msg (queued es) -> run link_start es = Some (s, os) ->
  is_prefix (said os) (hello ih pid) \/
  exists ms b, is_prefix ms (queued es) /\ torn ms b /\ said os = hello ih pid ++ b.
Proof.
  intros es s os WQ R. pose proof (@wrote_ok es s os WQ R) as H.
  destruct (l_phase s) as [|rest| |r cur|] eqn:P; try (unfold wrote in H; rewrite P in H).
  - left. destruct H as [-> _]. eexists. reflexivity.
  - left. destruct H as (_ & <- & _). exists rest. auto.
  - left. destruct H as [-> _]. exists []. rewrite app_nil_r. auto.
  - right. destruct (@wrote_end es s os r cur P (@wrote_ok es s os WQ R)) as (ms & b & A & B & C & _). exists ms, b. auto.
  - destruct H as [(ms & b & A & B & C & _)|A]; auto. right. exists ms, b. auto.
Qed.

(** C112. Full statement: what the peer sends after its handshake is passed on
    in order, however it is cut into reads. Proved if the handshake comes in
    one read, alone or with what follows it. *)
Theorem C112_heard_partial : forall es s os first rs reply ms rest, run link_start es = Some (s, os) ->
  answer reply -> Forall wf_msg ms -> heard es ++ rest = reply ++ stream_of ms ->
  reads es = first :: rs -> 68 <= length first ->
  exists d, whole d ms (skipn 68 (heard es)) /\ passed_on os = flat_map (handle_message peer) d.
Proof.
  intros es s os first rs reply ms rest R AN W E RD LF. pose proof (@told_ok es s os R) as H. unfold told in H.
  assert (LR : length reply = 68). { destruct AN as (rv & ih' & pid' & H1 & H2 & H3 & ->). unfold bep3_handshake. cbn [length]. rewrite !app_length, H1, H2, H3. auto. }
  assert (V : initiate_handshake reply = Val tt) by (apply C18_handshake_partial; auto).
  assert (HC : heard es = concat (reads es)) by (clear; induction es as [|[] es IH]; auto; cbn; f_equal; exact IH).
  assert (FR : length first <= 68 -> first = reply /\ concat rs ++ rest = stream_of ms /\ skipn 68 (heard es) = concat rs).
  { intro LE. assert (L : length first = 68) by lia. rewrite HC, RD in E |- *. cbn [concat] in E |- *. rewrite <- app_assoc in E.
    assert (A : first = reply) by (destruct (app_split_len _ _ _ _ (eq_trans L (eq_sym LR)) E); auto).
    subst first. apply app_inv_head in E. split; auto. split; auto. rewrite <- LR, skipn_app, skipn_all, Nat.sub_diag. auto. }
  assert (VL : forall c, initiate_handshake c = Val tt -> length c <= 68).
  { intros c Hc. unfold initiate_handshake in Hc. destruct (Nat.eqb_spec (length c) HANDSHAKE_LENGTH) as [->|]; [|discriminate]. apply le_n. }
  destruct (l_phase s) as [| | |r cur|].
  1-3: destruct H as [_ H]; congruence.
  - destruct H as (reply' & rs' & RD' & V' & H). rewrite RD in RD'. injection RD' as <- <-.
    destruct (FR (VL _ V')) as (-> & E' & ->).
    destruct (H ms rest W E') as (d & t & E1 & E2 & _ & E3 & E4). exists d. split; auto. exists t, (pending r). auto.
  - destruct H as [(reply' & rs' & RD' & V' & H)|(_ & [H|(r' & H & LE & N)])]; try congruence.
    + rewrite RD in RD'. injection RD' as <- <-. destruct (FR (VL _ V')) as (-> & E' & ->). eauto.
    + rewrite RD in H. injection H as <- ->. destruct (FR LE) as (FE & _). rewrite FE in N. contradiction.
Qed.
(** Without an acceptable answer nothing is passed on but that the peer cannot
    be reached, once, at the end. *)
Theorem C112_refused : forall es s os, run link_start es = Some (s, os) ->
  (forall reply, hd_error (reads es) = Some reply -> ~ answer reply) ->
  (passed_on os = [] /\ ~ ended s) \/ (passed_on os = [ToPeer peer CUnreachable] /\ ended s).
Proof.
  intros es s os R NA. pose proof (@told_ok es s os R) as H. unfold told in H. unfold ended.
  destruct (l_phase s) as [| | |r cur|].
  1-3: left; destruct H as [H _]; split; auto; discriminate.
  - exfalso. destruct H as (reply & rs & RD & V & _). apply (NA reply); [rewrite RD; auto|]. apply C18_handshake_partial. auto.
  - destruct H as [(reply & rs & RD & V & _)|[H _]]; auto. exfalso. apply (NA reply); [rewrite RD; auto|]. apply C18_handshake_partial. auto.
Qed.

(** And this is reported at the first failure. *)
Theorem C112_reported : forall es s os, run link_start es = Some (s, os) ->
  (forall reply, hd_error (reads es) = Some reply -> ~ answer reply) -> Exists decisive es ->
  passed_on os = [ToPeer peer CUnreachable] /\ ended s.
Proof.
  intros es s os R NA D. destruct (@C112_refused es s os R NA) as [[_ N]|H]; auto. exfalso.
  assert (U : ~ up s).
  { intro U. unfold up in U. pose proof (@told_ok es s os R) as H. unfold told in H. destruct (l_phase s); try contradiction.
    destruct H as (reply & rs & RD & V & _). apply (NA reply); [rewrite RD; auto|]. apply C18_handshake_partial. auto. }
  revert s os R N U. clear NA. apply Exists_exists in D as (e & I & D). revert e I D.
  induction es as [|x es IH] using rev_ind; intros e I D s os R N U; [contradiction|].
  destruct (run_snoc _ _ _ R) as (s1 & o1 & o & R1 & S & ->). apply in_app_iff in I. unfold ended, up in *.
  destruct I as [I|[->|[]]].
  - apply (IH e I D s1 o1 R1); intro Z; unfold link_step in S.
    + rewrite Z in S. discriminate.
    + destruct (l_phase s1) as [| | |r cur|] eqn:P; try contradiction. destruct x; destruct cur; try discriminate;
        try (destruct (l_queue s1); try discriminate); try (destruct (_ <=? _); try discriminate; destruct (recv_read r c) as [[]| |]);
        try (destruct (_ && _); try discriminate); injection S as <- <-; cbn [l_phase] in *; auto.
  - unfold link_step in S. destruct (l_phase s1) as [| | |r cur|]; try contradiction; destruct e; try contradiction; try discriminate.
    all: try (destruct cur; try discriminate).
    all: try (destruct (_ <=? _); try discriminate).
    all: try (destruct (initiate_handshake c)).
    all: try (destruct (recv_read r c) as [[]| |]).
    all: injection S as <- <-; cbn [l_phase] in *; auto.
Qed.

(** C113. Full statement: the shutdown signal ends the task at any time. *)
Theorem C113_shutdown_partial : forall s, up s -> exists s', step s EShutdown = Some (s', []) /\ ended s'.
Proof.
  intros s U. unfold up in U. destruct (l_phase s) as [| | |r cur|] eqn:P; try contradiction. unfold link_step. rewrite P.
  exists (mk_link LEnd (l_queue s)). destruct cur; split; reflexivity.
Qed.
(** Until the handshake is done it is not looked at. *)
Theorem C113_deaf_always : forall s, ~ up s -> step s EShutdown = None.
Proof. intros s U. unfold up in U. unfold link_step. destruct (l_phase s); auto. contradiction. Qed.
End Runs.
Print Assumptions C111_written_partial.
Print Assumptions C111_finishes.
Print Assumptions C111_torn.
Print Assumptions C112_heard_partial.
Print Assumptions C112_refused.
Print Assumptions C112_reported.
Print Assumptions C113_shutdown_partial.
Print Assumptions C113_deaf_always.

(** A write that fails in the middle of a message: the next message follows
    the beginning of the broken one, and a peer that reads as this client does
    takes "have" and "interested" for "choke". *)
Theorem C111_written_refuted : exists ih pid peer es s os b, wf_id ih /\ wf_id pid /\
  Forall wf_msg (queued es) /\ link_run ih pid peer link_start es = Some (s, os) /\ up s /\
  queued es = [Have 1; Interested] /\ said os = hello ih pid ++ b /\
  ~ is_prefix (said os) (hello ih pid ++ stream_of (queued es)) /\
  outcome (recv_run recv_init b [100]) = Some ([Choke], []).
Proof.
  exists (repeat xaa 20), (repeat xbb 20), (mk_addr x01 x02 x03 x04 6881),
    [EConnected; EWrote 68; ERead (hello (repeat xaa 20) (repeat xcc 20)); EQueue (Have 1); EQueue Interested; ETake; EWrote 4; EWriteErr; ETake; EWrote 5].
  eexists. eexists. exists [x00; x00; x00; x05; x00; x00; x00; x01; x02]. split; [reflexivity|]. split; [reflexivity|].
  split. { repeat constructor. }
  split. { vm_compute. reflexivity. }
  split. { exact I. } split; [reflexivity|]. split; [vm_compute; reflexivity|]. split; [|vm_compute; reflexivity].
  intros [t H]. apply (f_equal (firstn 77)) in H. vm_compute in H. discriminate.
Qed.
Print Assumptions C111_written_refuted.
(** A valid handshake that arrives in two reads: the peer counts as
    unreachable and its messages are not heard. *)
Theorem C112_heard_refuted : exists ih pid peer es s os reply, wf_id ih /\ wf_id pid /\
  link_run ih pid peer link_start es = Some (s, os) /\ answer reply /\
  is_prefix (heard es) (reply ++ stream_of [Unchoke]) /\ heard es <> [] /\
  passed_on os = [ToPeer peer CUnreachable] /\ forall e, link_step ih pid peer s e = None.
Proof.
  exists (repeat xaa 20), (repeat xbb 20), (mk_addr x01 x02 x03 x04 6881),
    [EConnected; EWrote 68; ERead (firstn 48 (hello (repeat xaa 20) (repeat xcc 20)))].
  exists (mk_link LEnd []). eexists. exists (hello (repeat xaa 20) (repeat xcc 20)). split; [reflexivity|]. split; [reflexivity|].
  split. { vm_compute. reflexivity. }
  split. { exists reserved_dht, (repeat xaa 20), (repeat xcc 20). repeat split. }
  split. { exists (skipn 48 (hello (repeat xaa 20) (repeat xcc 20)) ++ stream_of [Unchoke]). vm_compute. reflexivity. }
  split; [discriminate|]. split; [reflexivity|]. intros []; reflexivity.
Qed.
Print Assumptions C112_heard_refuted.
(** A peer that takes the connection and says nothing keeps the task for ever:
    nothing but its answer ends it. *)
Theorem C113_shutdown_refuted : exists ih pid peer es s os, wf_id ih /\ wf_id pid /\
  link_run ih pid peer link_start es = Some (s, os) /\ ~ ended s /\ link_step ih pid peer s EShutdown = None /\
  forall es' s' os', link_run ih pid peer s es' = Some (s', os') -> (forall e, In e es' -> ~ answering e) -> ~ ended s'.
Proof.
  exists (repeat xaa 20), (repeat xbb 20), (mk_addr x01 x02 x03 x04 6881), [EConnected; EWrote 68].
  exists (mk_link LReply []). eexists. split; [reflexivity|]. split; [reflexivity|].
  split. { vm_compute. reflexivity. } split; [discriminate|]. split; [reflexivity|].
  intros es' s' os' R NA. assert (G : forall es' s s' os', l_phase s = LReply -> (forall e, In e es' -> ~ answering e) ->
    link_run (repeat xaa 20) (repeat xbb 20) (mk_addr x01 x02 x03 x04 6881) s es' = Some (s', os') -> l_phase s' = LReply).
  { clear. induction es' as [|e es' IH]; intros s s' os' P NA R; cbn [link_run] in R.
    - injection R as <- <-. auto.
    - destruct (link_step _ _ _ s e) as [[s1 o1]|] eqn:S; [|discriminate]. destruct (link_run _ _ _ s1 es') as [[s2 o2]|] eqn:R2; [|discriminate].
      injection R as <- <-. eapply IH; [|intros; apply NA; right; eauto|exact R2].
      unfold link_step in S. rewrite P in S. destruct e; try discriminate.
      + injection S as <- <-. auto.
      + exfalso. eapply NA; [left; reflexivity|exact I].
      + exfalso. eapply NA; [left; reflexivity|exact I]. }
  unfold ended. rewrite (G es' (mk_link LReply []) s' os' eq_refl NA R). discriminate.
Qed.
Print Assumptions C113_shutdown_refuted.

(** A connection on which everything is said and heard, in pieces, and then
    shut down. *)
Definition ex_es : list levent :=
  [EQueue Interested; EConnected; EWrote 40; EWrote 28; ERead (hello (repeat xaa 20) (repeat xcc 20)); ERead [x00; x00; x00; x01];
   ETake; EQueue (Have 3); EWrote 2; ERead [x01; x00; x00]; EWrote 3; ETake; EWrote 9].
Example C111_example : exists s os,
  link_run (repeat xaa 20) (repeat xbb 20) (mk_addr x01 x02 x03 x04 6881) link_start ex_es = Some (s, os) /\
  queued ex_es = [Interested; Have 3] /\ Forall wf_msg (queued ex_es) /\ ~ write_fails ex_es /\ up s /\
  said os = hello (repeat xaa 20) (repeat xbb 20) ++ stream_of [Interested; Have 3].
Proof.
  eexists. eexists. split; [vm_compute; reflexivity|]. split; [reflexivity|]. split. { repeat constructor. }
  split. { unfold write_fails, ex_es. intro H. repeat (destruct H as [H|H]; [discriminate|]). exact H. } split; [exact I|]. vm_compute. reflexivity.
Qed.
Example C112_example : exists s os rest,
  link_run (repeat xaa 20) (repeat xbb 20) (mk_addr x01 x02 x03 x04 6881) link_start ex_es = Some (s, os) /\
  answer (hello (repeat xaa 20) (repeat xcc 20)) /\
  reads ex_es = [hello (repeat xaa 20) (repeat xcc 20); [x00; x00; x00; x01]; [x01; x00; x00]] /\
  heard ex_es ++ rest = hello (repeat xaa 20) (repeat xcc 20) ++ stream_of [Unchoke; Have 7] /\
  passed_on os = [ToPeer (mk_addr x01 x02 x03 x04 6881) CUnchoke].
Proof.
  eexists. eexists. exists [x00; x05; x04; x00; x00; x00; x07]. split; [vm_compute; reflexivity|].
  split. { exists reserved_dht, (repeat xaa 20), (repeat xcc 20). repeat split. } split; [reflexivity|]. split; vm_compute; reflexivity.
Qed.
Example C113_example : exists s os,
  link_run (repeat xaa 20) (repeat xbb 20) (mk_addr x01 x02 x03 x04 6881) link_start (ex_es ++ [EShutdown]) = Some (s, os) /\ ended s.
Proof. eexists. eexists. split; [vm_compute; reflexivity|]. reflexivity. Qed.
