(** C103: what trackers are told of the progress. C104: which trackers are
    contacted, and about what. *)
From Coq Require Import Strings.String.
From Coq Require Import List NArith ZArith Lia Bool Arith Permutation.
From Coq Require Import Init.Byte.
From Verif Require Import Base Assoc IdModel WireModel TableModel PeersModel BencodeModel BencodeSpec KrpcModel TrackerModel TrackerSpec MetainfoModel MetainfoSpec MetainfoProps ManagerModel DhtModel DhtSysModel DhtSysSpec DhtSysProps ClientModel ClientSpec ClientProps ClientEndProps StartModel ReportSpec.
Import ListNotations.
Local Open Scope list_scope.
Set Implicit Arguments.

(** ** Sizes *)
Lemma add_up_app : forall a b, add_up (a ++ b) = (add_up a + add_up b)%N.
Proof. induction a as [|x a IH]; intro b; cbn; [reflexivity|]. unfold add_up in *. cbn. rewrite IH. lia. Qed.
Lemma full_pieces : forall total pl l k, (forall i, In i l -> i < k) -> (N.of_nat k * pl <= total)%N -> add_up (map (piece_size total pl) l) = (N.of_nat (List.length l) * pl)%N.
Proof.
  intros total pl. induction l as [|i l IH]; intros k K T; [reflexivity|]. cbn [map List.length]. change (add_up (piece_size total pl i :: map (piece_size total pl) l)) with (piece_size total pl i + add_up (map (piece_size total pl) l))%N.
  rewrite (IH k) by (auto; intros; apply K; right; auto). pose proof (K i (or_introl eq_refl)) as L.
  assert (S : piece_size total pl i = pl).
  { unfold piece_size. apply N.min_l. assert ((N.of_nat i + 1) * pl <= N.of_nat k * pl)%N by (apply N.mul_le_mono_r; lia). lia. }
  rewrite S. lia.
Qed.
Definition lacks (have : list nat) (i : nat) : bool := negb (existsb (Nat.eqb i) have).
Lemma lacks_iff : forall have i, lacks have i = true <-> ~ In i have.
Proof.
  intros have i. unfold lacks. rewrite negb_true_iff. split.
  - intros E I. assert (X : existsb (Nat.eqb i) have = true) by (apply existsb_exists; exists i; split; [exact I|apply Nat.eqb_refl]). congruence.
  - intro N. destruct (existsb (Nat.eqb i) have) eqn:E; [|reflexivity]. apply existsb_exists in E. destruct E as (j & I & J). apply Nat.eqb_eq in J. subst. tauto.
Qed.
Lemma lacking_count : forall have n, NoDup have -> (forall i, In i have -> i < n) -> List.length (filter (lacks have) (seq 0 n)) + List.length have = n.
Proof.
  intros have n ND B. assert (P : Permutation (filter (fun i => negb (lacks have i)) (seq 0 n)) have).
  { apply NoDup_Permutation; [apply NoDup_filter; apply seq_NoDup|exact ND|]. intro i. rewrite filter_In, in_seq, negb_true_iff. split.
    - intros (_ & L). destruct (in_dec Nat.eq_dec i have) as [I|I]; [exact I|]. apply lacks_iff in I. congruence.
    - intro I. split; [specialize (B i I); lia|]. destruct (lacks have i) eqn:E; [|reflexivity]. apply lacks_iff in E. tauto. }
  rewrite <- (Permutation_length P). rewrite <- (seq_length n 0) at 3. generalize (seq 0 n). induction l as [|x l IH]; [reflexivity|]. cbn. destruct (lacks have x); cbn; lia.
Qed.
Theorem C103_left_partial : forall c total count have n, fits total (c_piece_length c) count -> c_pieces c = N.of_nat count ->
  NoDup have -> (forall i, In i have -> i < count) -> left_bytes c (N.of_nat (List.length have)) = Val n ->
  (still_missing total (c_piece_length c) count have <= n)%N /\
  (n < still_missing total (c_piece_length c) count have + c_piece_length c)%N /\
  (In (count - 1) have \/ total = (N.of_nat count * c_piece_length c)%N -> n = still_missing total (c_piece_length c) count have).
Proof.
  intros c total count have n (P & C & T1 & T2) CP ND B L. set (pl := c_piece_length c) in *.
  assert (E : n = ((N.of_nat count - N.of_nat (List.length have)) * pl)%N).
  { unfold left_bytes in L. rewrite CP in L. destruct (_ <? _)%N; [discriminate|]. destruct (_ <? _)%N; [discriminate|]. injection L as <-. reflexivity. }
  pose proof (lacking_count ND B) as K. destruct count as [|k]; [lia|]. replace (S k - 1) with k in * by lia.
  unfold still_missing. fold (lacks have). rewrite seq_S in *. cbn [Nat.add] in *. rewrite filter_app in *. cbn [filter] in *. rewrite map_app, add_up_app.
  rewrite (@full_pieces total pl _ k) by (try lia; intros i I; apply filter_In in I; destruct I as (I & _); apply in_seq in I; lia).
  rewrite app_length in K. set (a := List.length (filter (lacks have) (seq 0 k))) in *.
  assert (PS : piece_size total pl k = (total - N.of_nat k * pl)%N) by (unfold piece_size; apply N.min_r; lia).
  destruct (lacks have k) eqn:LK; cbn [map add_up fold_right List.length] in *; rewrite ?PS.
  - assert (n = (N.of_nat a + 1) * pl)%N by (rewrite E; f_equal; lia). sp; [lia|lia|]. intros [I|I]; [|lia]. apply lacks_iff in LK. tauto.
  - assert (n = N.of_nat a * pl)%N by (rewrite E; f_equal; lia). sp; lia.
Qed.

(** ** Sessions *)
(** What a session of the client says. *)
Definition plain (c : tracker_cfg) (a : announce) : Prop :=
  about c a /\ a_left a = (c_pieces c * c_piece_length c)%N /\ a_uploaded a = 0%N /\ a_downloaded a = 0%N /\ a_event a <> Some Completed.
Definition calm (c : tracker_cfg) (u : tsession) : Prop := t_phase u = Crashed \/ t_phase u = Ended \/ t_unread u = 0 /\ plain c (t_ann u).
Lemma left_all : forall c n, left_bytes c DOWNLOADED = Val n -> n = (c_pieces c * c_piece_length c)%N.
Proof. intros c n H. unfold left_bytes, DOWNLOADED in H. destruct (_ <? _)%N; [discriminate|]. destruct (_ <? _)%N; [discriminate|]. injection H as <-. rewrite N.sub_0_r. reflexivity. Qed.
Lemma open_calm : forall now c, calm c (open_trk now c).
Proof.
  intros now c. unfold open_trk, open_session. destruct (left_bytes c DOWNLOADED) as [n| |] eqn:L; cbn [rmap]; [|left; reflexivity|left; reflexivity].
  right. right. cbn. split; [reflexivity|]. apply left_all in L. unfold plain, about. cbn. sp; auto. discriminate.
Qed.
Lemma open_all : forall now l, Forall2 calm l (map (open_trk now) l).
Proof. intros now l. induction l as [|c l IH]; cbn; constructor; auto. apply open_calm. Qed.
Lemma step_calm : forall c u now e u' o, calm c u -> session_step c u now DOWNLOADED e = Some (u', o) -> e <> Completion -> calm c u' /\ forall a, In (Get a) o -> plain c a.
Proof.
  intros c u now e u' o K H NC.
  assert (W : forall ev l, plain c (t_ann u) -> left_bytes c DOWNLOADED = Val l -> ev <> Some Completed -> plain c (with_event (t_ann u) ev l)).
  { intros ev l ((A1 & A2 & A3 & A4 & A5) & B & C & D & E) L N. apply left_all in L. unfold plain, about. cbn. sp; auto. }
  unfold session_step in H. destruct K as [K|[K|(K1 & K2)]]; [rewrite K in H; destruct e; discriminate|rewrite K in H; destruct e; discriminate|].
  destruct e as [r| | | | |], (t_phase u) as [| |iv| |] eqn:PH; try discriminate; try congruence.
  - injection H as <- <-. split; [|intros a [X|[]]; discriminate]. right. right. cbn. split; [exact K1|]. destruct (a_tracker_id (t_ann u)), (r_tracker_id r); exact K2.
  - injection H as <- <-. split; [|intros a []]. right. right. auto.
  - destruct (_ <=? _)%N; [|discriminate]. injection H as <- <-. split; [right; right; auto|]. intros a [X|[]]. injection X as <-. exact K2.
  - destruct (_ <=? _)%N; [|discriminate]. unfold announce_again in H. destruct (left_bytes c DOWNLOADED) as [l| |] eqn:L; injection H as <- <-; [|split; [left; reflexivity|intros a []]..].
    assert (X : plain c (with_event (t_ann u) None l)) by (apply W; [exact K2|first [exact L|reflexivity]|discriminate]). split; [right; right; auto|]. intros a [Y|[]]. injection Y as <-. exact X.
  - rewrite K1 in H. discriminate.
  - injection H as <- <-. split; [right; left; reflexivity|intros a []].
  - injection H as <- <-. split; [right; left; reflexivity|intros a []].
  - destruct (left_bytes c DOWNLOADED) as [l| |] eqn:L; injection H as <- <-; [|split; [left; reflexivity|intros a []]..]. split; [right; left; reflexivity|]. intros a [Y|[]]. injection Y as <-. apply W; [exact K2|first [exact L|reflexivity]|discriminate].
Qed.

Section client.
Variable sha : bytes -> bytes.
Variable usize_max : nat.
Variable cap : caps.
Variable tcp_port : N.
Variable cfgs : list tracker_cfg.
Notation step := (cstep sha usize_max cap tcp_port cfgs).
Notation run := (crun sha usize_max cap tcp_port cfgs).

Lemma trk_frame : forall s e s' o, step s e = Some (s', o) -> (forall i now x, e <> CTrk i now x) -> q_trk s' = q_trk s /\ asked_trackers o = [].
Proof.
  intros s e s' o H NT. unfold cstep in H. destruct (q_exit s); [discriminate|].
  assert (TM : forall z p c z', tell_mgr z p c = Some z' -> q_trk z' = q_trk z).
  { intros z p c z' T. unfold tell_mgr in T. destruct (q_mgr z); [|injection T as <-; reflexivity]. destruct (_ <? _); [|discriminate]. injection T as <-. reflexivity. }
  assert (TO : forall l, asked_trackers (flat_map told l) = []) by (induction l as [|[p|? ? ?] l IH]; cbn; auto).
  destruct e as [sent| |i ok|i m|i|i|i lk|i ix bs|i|e|i now e| | |ks ks'].
  - destruct (q_mgr s) as [m|]; [|discriminate]. destruct (m_refresh _ _) as [[[m1 tab] o1]| |]; try (injection H as <- <-; auto; fail). destruct (m_assign _ _) as [[m2 o2]| |]; injection H as <- <-; split; auto.
  - destruct (q_mgr s) as [m|]; [|discriminate]. destruct (q_rec s) as [|[p c] q]; [discriminate|]. injection H as <- <-. auto.
  - destruct (nth_error (q_cons s) i) as [x|]; [|discriminate]. destruct (_ && _); [|discriminate]. destruct ok; [injection H as <- <-; auto|]. destruct (tell_mgr s _ _) as [s1|] eqn:T; [|discriminate]. injection H as <- <-. split; [apply TM in T; exact T|reflexivity].
  - destruct (nth_error (q_cons s) i) as [x|]; [|discriminate]. destruct (_ && _); [|discriminate]. destruct (deliver_all _ _ _ _ _ _) as [s1|] eqn:D; [|discriminate]. injection H as <- <-. split; [|reflexivity]. eapply deliver_more in D. apply D.
  - destruct (nth_error (q_cons s) i) as [x|]; [|discriminate]. destruct (_ && _); [|discriminate]. injection H as <- <-. auto.
  - destruct (nth_error (q_cons s) i) as [x|]; [|discriminate]. destruct (_ && _); [|discriminate]. injection H as <- <-. auto.
  - destruct (nth_error (q_cons s) i) as [x|]; [|discriminate]. destruct (pc_dl x); [|discriminate]. injection H as <- <-. auto.
  - destruct (nth_error (q_cons s) i) as [x|]; [|discriminate]. destruct (pc_dl x); [|discriminate]. destruct (tell_mgr s _ _) as [s1|] eqn:T; [|discriminate]. injection H as <- <-. split; [apply TM in T; exact T|reflexivity].
  - destruct (nth_error (q_cons s) i) as [x|]; [|discriminate]. destruct (q_mgr s); [discriminate|]. destruct (_ && _); [|discriminate]. injection H as <- <-. auto.
  - destruct (dht_ok s e); [|discriminate]. destruct (ystep _ _ _ _ _ _) as [[y l]|]; [|discriminate]. injection H as <- <-. split; [reflexivity|]. cbn. generalize l. induction l0; cbn; auto.
  - destruct (NT i now e eq_refl).
  - destruct (q_sig s); [discriminate|]. injection H as <- <-. auto.
  - destruct (_ && _); [|discriminate]. injection H as <- <-. auto.
  - injection H as <- <-. auto.
Qed.
Definition all_calm (s : client) : Prop := Forall2 calm cfgs (q_trk s).
Lemma calm_step : forall s e s' o, all_calm s -> step s e = Some (s', o) -> all_calm s' /\ forall a, In a (asked_trackers o) -> exists c, In c cfgs /\ plain c a.
Proof.
  intros s e s' o K H. destruct e as [sent| |i ok|i m|i|i|i lk|i ix bs|i|e|i now e| | |ks ks'];
    try (destruct (@trk_frame _ _ _ _ H) as (A & B); [discriminate|]; unfold all_calm; rewrite A, B; split; [exact K|intros a []]).
  unfold cstep in H. destruct (q_exit s); [discriminate|]. destruct (nth_error cfgs i) as [c|] eqn:NC; [|discriminate]. destruct (nth_error (q_trk s) i) as [u|] eqn:NU; [|discriminate]. destruct (trk_ok s e) eqn:OK; [|discriminate].
  destruct (session_step _ _ _ _ _) as [[u' os]|] eqn:SS; [|discriminate]. cbn [option_map fst snd] in H. injection H as <- <-.
  assert (C : calm c u). { clear - K NC NU. unfold all_calm in K. revert i NC NU. induction K as [|x y l l' H K IH]; intros [|i] A B; try discriminate; cbn in A, B; [injection A as <-; injection B as <-; exact H|eauto]. }
  destruct (@step_calm _ _ _ _ _ _ C SS) as (C' & G); [intros ->; discriminate|]. split.
  - unfold all_calm. cbn [with_sys with_trk q_trk]. clear - K NC C'. unfold all_calm in K. revert i NC. induction K as [|x y l l' H K IH]; intros [|i] A; try discriminate; cbn in A; cbn [upd]; [injection A as <-; constructor; auto|constructor; auto].
  - intros a I. exists c. split; [eapply nth_error_In; eauto|]. apply G. clear - I. induction os as [|x os IH]; [destruct I|]. cbn in I. destruct x as [b|l]; cbn in I; [destruct I as [->|I]; [left; reflexivity|right; auto]|right; auto].
Qed.
Lemma calm_run : forall es s s' h, all_calm s -> run s es = Some (s', h) -> forall a, In a (asked_trackers (seen h)) -> exists c, In c cfgs /\ plain c a.
Proof.
  induction es as [|e es IH]; intros s s' h K H a I; cbn [crun] in H; [injection H as <- <-; destruct I|].
  destruct (step s e) as [[s1 o]|] eqn:S; [|discriminate]. destruct (run s1 es) as [[s2 h2]|] eqn:R; [|discriminate]. injection H as <- <-. destruct (@calm_step _ _ _ _ K S) as (K1 & G).
  unfold seen in I. cbn [flat_map snd] in I. unfold asked_trackers in I. rewrite flat_map_app in I. apply in_app_or in I. destruct I as [I|I]; [apply G; exact I|eapply IH; eauto].
Qed.
(** Whatever happens, every request of the client tells its tracker that nothing
    was downloaded or sent, that all is missing, and never that the download is
    complete. *)
Theorem C103_constant : forall own secret info hashes fs_ok t now es s h a, run (client_start cfgs own secret info hashes fs_ok t now) es = Some (s, h) ->
  In a (asked_trackers (seen h)) ->
  exists c, In c cfgs /\ about c a /\ a_left a = (c_pieces c * c_piece_length c)%N /\ a_uploaded a = 0%N /\ a_downloaded a = 0%N /\ a_event a <> Some Completed.
Proof.
  intros own secret info hashes fs_ok t now es s h a R I. eapply calm_run; [|exact R|exact I].
  apply open_all.
Qed.
End client.

(** ** from the file *)
Lemma http_in : forall t u, In u (http_trackers t) <-> In (Http u) (t_announce t).
Proof.
  intros t u. unfold http_trackers. rewrite in_flat_map. split.
  - intros (x & I & J). destruct x as [y|y]; cbn in J; [destruct J as [->|[]]; exact I|destruct J].
  - intro I. exists (Http u). split; [exact I|left; reflexivity].
Qed.
Lemma asked_plain : forall sha um cap w port own secret info hashes fs_ok tb now t es s h a, let cs := cfgs_of t (w_peer_id w) port in
  crun sha um cap port cs (client_start cs own secret info hashes fs_ok tb now) es = Some (s, h) -> In a (asked_trackers (flat_map (first_request now) cs ++ seen h)) ->
  exists c, In c cs /\ plain c a.
Proof.
  intros sha um cap w port own secret info hashes fs_ok tb now t es s h a cs R I. unfold asked_trackers in I. rewrite flat_map_app in I. apply in_app_or in I. destruct I as [I|I].
  - apply in_flat_map in I. destruct I as (o & I & J). apply in_flat_map in I. destruct I as (c & C & I). exists c. split; [exact C|]. unfold first_request, open_session in I. destruct (left_bytes c DOWNLOADED) as [n| |] eqn:L; cbn in I; [|destruct I..].
    destruct I as [I|[]]. subst o. cbn in J. destruct J as [<-|[]]. apply left_all in L. unfold plain, about. cbn. sp; auto. discriminate.
  - exact (@C103_constant sha um cap port cs _ _ _ _ _ _ _ _ _ _ _ R I).
Qed.
(** What the trackers of a torrent hear of its progress, in every request of every
    run: all of it is missing, give or take the last piece. *)
Theorem C103_from_file : forall sha1 sha usize_max cap w file port s0 cs outs0, main_start sha1 w (Some file) (Some port) = Val (s0, cs, outs0) ->
  exists t, torrent_from_buf sha1 file = Val t /\ forall es s h a, crun sha usize_max cap port cs s0 es = Some (s, h) -> In a (asked_trackers (outs0 ++ seen h)) ->
    a_left a = (N.of_nat (count_pieces t) * i_piece_length (t_info t))%N /\ a_uploaded a = 0%N /\ a_downloaded a = 0%N /\ a_event a <> Some Completed /\
    forall total, fits total (i_piece_length (t_info t)) (count_pieces t) -> (total <= a_left a < total + i_piece_length (t_info t))%N.
Proof.
  intros sha1 sha um cap w file port s0 cs outs0 M. cbn [main_start] in M. destruct (torrent_from_buf sha1 file) as [t| |] eqn:T; try discriminate. injection M as <- <- <-.
  exists t. split; [reflexivity|]. intros es s h a R I. destruct (@asked_plain _ _ _ _ _ _ _ _ _ _ _ _ _ _ _ _ _ R I) as (c & C & _ & L & U & D & E). unfold cfgs_of in C. apply in_map_iff in C. destruct C as (u & <- & _). cbn in L. sp; auto.
  intros total (F1 & F2 & F3 & F4). rewrite L. split; [exact F4|]. replace (count_pieces t) with (count_pieces t - 1 + 1) at 1 by lia. rewrite Nnat.Nat2N.inj_add. change (N.of_nat 1) with 1%N. lia.
Qed.
(** All requests go to HTTP trackers the file lists, about the torrent in the
    file; and each of them gets its first request at once, unless the size of the
    torrent is beyond 64 bits. *)
Theorem C104_trackers : forall sha1 sha usize_max cap w file port s0 cs outs0, main_start sha1 w (Some file) (Some port) = Val (s0, cs, outs0) ->
  exists t d tl di, torrent_from_buf sha1 file = Val t /\ file = enc (BDict d) ++ tl /\ ordered (BDict d) /\ In (str "info", BDict di) d /\
  (forall es s h a, crun sha usize_max cap port cs s0 es = Some (s, h) -> In a (asked_trackers (outs0 ++ seen h)) ->
    url_of d (a_url a) /\ (exists rest, a_url a = str "http" ++ rest) /\ a_info_hash a = sha1 (enc (BDict di)) /\ a_peer_id a = w_peer_id w /\ a_port a = port) /\
  (forall u, url_of d u -> (exists rest, u = str "http" ++ rest) -> (N.of_nat (count_pieces t) * i_piece_length (t_info t) < 2 ^ 64)%N ->
    exists a, In a (asked_trackers outs0) /\ a_url a = u /\ a_event a = Some Started).
Proof.
  intros sha1 sha um cap w file port s0 cs outs0 M. cbn [main_start] in M. destruct (torrent_from_buf sha1 file) as [t| |] eqn:T; try discriminate. injection M as <- <- <-.
  destruct (C56_says _ _ T) as (d & tl & F & O & _ & (di & DI & IS & HA) & UO & ND & NE & TR). exists t, d, tl, di. sp; auto.
  - intros es s h a R I.
    destruct (@asked_plain _ _ _ _ _ _ _ _ _ _ _ _ _ _ _ _ _ R I) as (c & C & (A1 & A2 & A3 & A4 & _) & _). unfold cfgs_of in C. apply in_map_iff in C. destruct C as (u & <- & U). cbn in A1, A2, A3, A4. rewrite A1, A2, A3, A4. apply http_in in U. apply TR in U. destruct U as (u' & U & <- & K). sp; auto.
  - intros u U K L. assert (I : In u (http_trackers t)). { apply http_in. apply TR. exists u. split; [exact U|]. cbn. auto. }
    set (a := first_announce (cfg_of t (w_peer_id w) port u) (N.of_nat (count_pieces t) * i_piece_length (t_info t))). exists a. split; [|split; reflexivity].
    unfold asked_trackers. apply in_flat_map. exists (CGet a). split; [|left; reflexivity]. apply in_flat_map. exists (cfg_of t (w_peer_id w) port u). split; [apply in_map; exact I|].
    unfold first_request, open_session, left_bytes, DOWNLOADED. cbn [cfg_of c_pieces c_piece_length]. change (2 ^ 64)%N with 18446744073709551616%N in L. rewrite N.sub_0_r.
    assert (E1 : (N.of_nat (count_pieces t) <? 0)%N = false) by (apply N.ltb_ge; lia). rewrite E1.
    assert (E2 : (u64_max <? N.of_nat (count_pieces t) * i_piece_length (t_info t))%N = false) by (apply N.ltb_ge; unfold u64_max; lia). rewrite E2. left. reflexivity.
Qed.
(** A file that is not a torrent, or no port: nothing is started. *)
Theorem C104_nothing_started : forall sha1 w file port, (forall r, main_start sha1 w file port <> Val r) <->
  file = None \/ port = None \/ exists s, file = Some s /\ torrent_from_buf sha1 s = Fail.
Proof.
  intros sha1 w file port. split.
  - intro H. destruct file as [s|]; [|auto]. destruct port as [p|]; [|auto]. cbn [main_start] in H. destruct (torrent_from_buf sha1 s) as [t| |] eqn:T.
    + edestruct H. reflexivity.
    + right. right. eauto.
    + destruct (C56_never_panics sha1 s T).
  - intros [->|[->|(s & -> & T)]] r; cbn [main_start]; [discriminate| |rewrite T; discriminate]. destruct file as [s|]; [|discriminate]. cbn. destruct (torrent_from_buf sha1 s); discriminate.
Qed.
(** The full statement about progress: at any time [left] is what is missing. It
    fails at the very start if the last piece is short... *)
Theorem C103_left_refuted : forall sha1 w, exists file t total s0 cs outs0 a, main_start sha1 w (Some file) (Some 6881%N) = Val (s0, cs, outs0) /\ torrent_from_buf sha1 file = Val t /\ info_length (t_info t) = Val total /\
  fits total (i_piece_length (t_info t)) (count_pieces t) /\ In a (asked_trackers outs0) /\ a_left a <> still_missing total (i_piece_length (t_info t)) (count_pieces t) [] /\ (a_left a = 16384 /\ total = 10)%N.
Proof.
  intros sha1 w. exists (bad_torrent 10 16384).
  assert (T : exists t, torrent_from_buf sha1 (bad_torrent 10 16384) = Val t /\ http_trackers t = [str "http://t/a"] /\ count_pieces t = 1 /\ i_piece_length (t_info t) = 16384%N /\ info_length (t_info t) = Val 10%N).
  { eexists. split; [with_strategy transparent [MAX_DEPTH] (vm_compute; reflexivity)|]. repeat split. }
  destruct T as (t & T & H & C & P & L). exists t, 10%N. unfold main_start. rewrite T. eexists _, _, _, (first_announce (cfg_of t (w_peer_id w) 6881 (str "http://t/a")) 16384). split; [reflexivity|]. split; [reflexivity|]. split; [exact L|].
  rewrite P, C. split; [unfold fits; lia|]. split; [|split; [vm_compute; discriminate|split; reflexivity]].
  unfold cfgs_of. rewrite H. cbn [map flat_map]. unfold first_request, open_session, left_bytes, DOWNLOADED. cbn [cfg_of c_pieces c_piece_length]. rewrite C, P. left. reflexivity.
Qed.
(** ... and once a piece was downloaded: the tracker is told as before. *)
Definition ex_progress : list cev :=
  ex_meet ++ [CDone 0 0 [repeat x00 4]; CTake; CTrk 0 1801 Elapsed].
Theorem C103_progress_refuted : forall sha usize_max tcp_port secret, exists s h a, crun sha usize_max CAPS tcp_port [ex_cfg] (ex_client secret) ex_progress = Some (s, h) /\
  In (CDone 0 0 [repeat x00 4]) (map fst h) /\ last (seen h) (CConnect ex_peer) = CGet a /\ a_left a = (c_pieces ex_cfg * c_piece_length ex_cfg)%N /\ a_downloaded a = 0%N.
Proof. intros. eexists _, _, _. split; [vm_compute; reflexivity|]. split; [cbn; tauto|]. split; [reflexivity|]. split; reflexivity. Qed.
(** A torrent that names a tracker, but no HTTP one, is accepted and nobody is
    asked. *)
Definition udp_torrent : bytes :=
  enc (BDict [(str "announce", BStr (str "udp://t/a"));
    (str "info", BDict [(str "length", BInt 10); (str "name", BStr (str "x")); (str "piece length", BInt 16384); (str "pieces", BStr (repeat x01 20))])]).
Theorem C104_all_trackers_refuted : forall sha1 w, exists file d u s0 cs outs0, main_start sha1 w (Some file) (Some 6881%N) = Val (s0, cs, outs0) /\ file = enc (BDict d) /\ url_of d u /\
  (exists rest, u = str "udp" ++ rest) /\ forall sha usize_max cap es s h, crun sha usize_max cap 6881 cs s0 es = Some (s, h) -> asked_trackers (outs0 ++ seen h) = [].
Proof.
  intros sha1 w. exists udp_torrent. eexists _, (str "udp://t/a").
  assert (T : exists t, torrent_from_buf sha1 udp_torrent = Val t /\ http_trackers t = []).
  { eexists. split; [with_strategy transparent [MAX_DEPTH] (vm_compute; reflexivity)|]. reflexivity. }
  destruct T as (t & T & H). unfold main_start. rewrite T. unfold cfgs_of. rewrite H. eexists _, _, _. split; [reflexivity|]. split; [reflexivity|].
  split; [left; left; reflexivity|]. split; [exists (str "://t/a"); reflexivity|]. intros sha um cap es s h R. cbn [map flat_map app].
  destruct (asked_trackers (seen h)) as [|a l] eqn:A; [reflexivity|]. destruct (@C103_constant sha um cap 6881%N _ _ _ _ _ _ _ _ _ _ _ a R) as (c & [] & _). rewrite A. left. reflexivity.
Qed.
Example C103_example : fits 32000 16384 2 /\ still_missing 32000 16384 2 [0] = 15616%N /\ left_bytes (mk_cfg [] [] [] 0 2 16384) 1 = Val 16384%N /\ still_missing 32000 16384 2 [1] = 16384%N.
Proof. unfold fits. cbn. repeat split; try lia. Qed.
Example C104_example : forall sha1 w, exists s0 cs outs0 a, main_start sha1 w (Some (enc (BDict ex_torrent) ++ str "junk")) (Some 6881%N) = Val (s0, cs, outs0) /\ outs0 = [CGet a] /\ a_url a = str "http://t/a" /\
  exists u, crun sha1 100 CAPS 6881 cs s0 [CTrk 0 9 Failure; CTrk 0 100 Elapsed] = Some u /\ asked_trackers (seen (snd u)) = [a].
Proof.
  intros sha1 w. unfold main_start. destruct (C56_example sha1) as (T & _ & H & C & _). rewrite T. unfold cfgs_of. rewrite H. eexists _, _, _, _. split; [reflexivity|]. split; [reflexivity|]. split; [reflexivity|].
  destruct w as [w1 w2 w3 w4 w5 w6]. eexists. split; [vm_compute; reflexivity|reflexivity].
Qed.
Print Assumptions C103_left_partial.
Print Assumptions C103_constant.
Print Assumptions C103_from_file.
Print Assumptions C103_left_refuted.
Print Assumptions C103_progress_refuted.
Print Assumptions C103_example.
Print Assumptions C104_trackers.
Print Assumptions C104_nothing_started.
Print Assumptions C104_all_trackers_refuted.
Print Assumptions C104_example.
