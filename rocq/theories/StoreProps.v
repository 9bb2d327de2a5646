(** C48: the routing table on disk. *)
From Coq Require Import List NArith ZArith Lia Bool Arith Permutation.
From Coq Require Import Init.Byte.
From Verif Require Import Base BitSpec IdModel IdProofs IdProps WireModel TableModel TableSpec TableProofs TableProofs2 TableProps.
Import ListNotations.
Set Implicit Arguments.

Definition wf_node (n : node) : Prop := wf_id (n_id n) /\ wf_addr (n_addr n).
Definition storable (t : table) : Prop :=
  wf_id (t_own t) /\ length (t_data t) <= 161 /\
  Forall (fun b => length (b_data b) = 8 /\ b_depth b <= 161 /\ forall n, In (Some n) (b_data b) -> wf_node n) (t_data t).

(** ** decoding what was encoded *)
Lemma take_app : forall n a s, length a = n -> dec_take n (a ++ s) = Val (a, s).
Proof.
  intros n a s <-. unfold dec_take. rewrite app_length. destruct (Nat.ltb_spec (length a + length s) (length a)); [lia|].
  rewrite firstn_app, firstn_all, Nat.sub_diag, firstn_O, app_nil_r. rewrite skipn_app, skipn_all, Nat.sub_diag. reflexivity.
Qed.
Lemma of_le_u64 : forall n, n < 1000 -> of_le (le_bytes 8 (N.of_nat n)) = N.of_nat n.
Proof. intros n H. rewrite of_le_le_bytes. apply N.mod_small. change (256 ^ N.of_nat 8)%N with 18446744073709551616%N. lia. Qed.
Lemma dec_id_enc : forall i s, wf_id i -> dec_id (enc_id i ++ s) = Val (i, s).
Proof.
  intros i s W. unfold dec_id, enc_id, enc_u64, dbind. rewrite <- app_assoc, take_app by apply le_bytes_length. cbn [rbind fst snd].
  rewrite W, of_le_u64 by (unfold ID_LEN; lia). rewrite app_length, W.
  destruct (N.ltb_spec (N.of_nat (ID_LEN + length s)) (N.of_nat ID_LEN)); [lia|].
  rewrite Nat2N.id, take_app by exact W. cbn [rbind fst snd]. unfold id_deserialize. rewrite W. reflexivity.
Qed.
Lemma dec_addr_enc : forall a s, wf_addr a -> dec_addr (enc_addr a ++ s) = Val (a, s).
Proof.
  intros a s W. unfold dec_addr, enc_addr, dbind. rewrite <- app_assoc, take_app by reflexivity. cbn [rbind fst snd].
  rewrite take_app by apply le_bytes_length. cbn [rbind fst snd addr_octets]. rewrite of_le_le_bytes, N.mod_small by exact W.
  destruct a; reflexivity.
Qed.
Lemma dec_slot_enc : forall o s, (forall n, o = Some n -> wf_node n) -> dec_slot (enc_slot o ++ s) = Val (option_map unseen o, s).
Proof.
  intros [n|] s W.
  - destruct (W n eq_refl) as (W1 & W2). unfold dec_slot, enc_slot, dbind. change (x01 :: enc_id (n_id n) ++ enc_addr (n_addr n)) with ([x01] ++ enc_id (n_id n) ++ enc_addr (n_addr n)).
    rewrite <- !app_assoc. rewrite take_app by reflexivity. cbn [rbind fst snd]. rewrite dec_id_enc by auto. cbn [rbind fst snd].
    rewrite dec_addr_enc by auto. reflexivity.
  - unfold dec_slot, enc_slot, dbind. rewrite take_app by reflexivity. reflexivity.
Qed.
Lemma dec_seq_enc : forall A (enc : A -> bytes) (p : dec A) (f : A -> A) l s,
  (forall x s, In x l -> p (enc x ++ s) = Val (f x, s)) -> dec_seq p (length l) (flat_map enc l ++ s) = Val (map f l, s).
Proof.
  intros A enc p f l. induction l as [|x l IH]; intros s H; cbn [length dec_seq flat_map map]; [reflexivity|].
  unfold dbind at 1. rewrite <- app_assoc, H by (left; auto). cbn [rbind fst snd]. unfold dbind.
  rewrite IH by (intros; apply H; right; auto). reflexivity.
Qed.
Lemma dec_bucket_enc : forall b s, length (b_data b) = 8 -> b_depth b <= 161 -> (forall n, In (Some n) (b_data b) -> wf_node n) ->
  dec_bucket (enc_bucket b ++ s) = Val (mk_bucket (b_depth b) (map (option_map unseen) (b_data b)), s).
Proof.
  intros b s L D W. unfold dec_bucket, enc_bucket, dec_u64, enc_u64, dbind, dret. rewrite <- app_assoc, take_app by apply le_bytes_length.
  cbn [rbind fst snd]. rewrite of_le_u64, Nat2N.id by lia. unfold K_NODE_PER_BUCKET. rewrite <- L.
  rewrite (@dec_seq_enc _ enc_slot dec_slot (option_map unseen)); [reflexivity|].
  intros x s' Hx. apply dec_slot_enc. intros n ->. auto.
Qed.
Lemma enc_bucket_len : forall b, 8 <= length (enc_bucket b).
Proof. intro b. unfold enc_bucket. rewrite app_length. unfold enc_u64. rewrite le_bytes_length. lia. Qed.
Lemma flat_map_len : forall A (f : A -> bytes) l, (forall x, In x l -> 1 <= length (f x)) -> length l <= length (flat_map f l).
Proof.
  intros A f l H. induction l as [|x l IH]; cbn; auto. rewrite app_length. pose proof (H x (or_introl eq_refl)).
  assert (length l <= length (flat_map f l)) by (apply IH; intros; apply H; right; auto). lia.
Qed.
Definition dec_table : dec table := dbind dec_id (fun o => dbind dec_buckets (fun l => dret (mk_table o l))).
Lemma dec_table_enc : forall t s, storable t -> dec_table (enc_table t ++ s) = Val (forget t, s).
Proof.
  intros t s (W & L & F). unfold dec_table, enc_table, dbind, dret. rewrite <- !app_assoc, dec_id_enc by auto. cbn [rbind fst snd].
  unfold dec_buckets, dbind, enc_u64. rewrite take_app by apply le_bytes_length. cbn [rbind fst snd].
  rewrite of_le_u64, app_length by lia.
  assert (LF : length (t_data t) <= length (flat_map enc_bucket (t_data t))).
  { apply flat_map_len. intros b _. pose proof (enc_bucket_len b). lia. }
  destruct (N.ltb_spec (N.of_nat (length (flat_map enc_bucket (t_data t)) + length s)) (N.of_nat (length (t_data t)))); [lia|].
  rewrite Nat2N.id. rewrite (@dec_seq_enc _ enc_bucket dec_bucket (fun b => mk_bucket (b_depth b) (map (option_map unseen) (b_data b)))).
  - reflexivity.
  - intros b s' Hb. rewrite Forall_forall in F. destruct (F b Hb) as (F1 & F2 & F3). apply dec_bucket_enc; auto.
Qed.

(** ** truncation *)
(** Reading more input does not change a result or an abort. *)
Definition mono {A} (p : dec A) : Prop := forall s tl,
  (forall x r, p s = Val (x, r) -> p (s ++ tl) = Val (x, r ++ tl)) /\ (p s = Panic -> p (s ++ tl) = Panic).
Lemma mono_take : forall n, mono (dec_take n).
Proof.
  intros n s tl. unfold dec_take. rewrite app_length. destruct (Nat.ltb_spec (length s) n).
  - split; discriminate.
  - destruct (Nat.ltb_spec (length s + length tl) n); [lia|]. split; [|discriminate]. intros x r E. injection E as <- <-.
    rewrite firstn_app, skipn_app. replace (n - length s) with 0 by lia. cbn [firstn skipn]. rewrite app_nil_r. reflexivity.
Qed.
Lemma mono_ret : forall A (x : A), mono (dret x).
Proof. intros A x s tl. unfold dret. split; [|discriminate]. intros y r E. injection E as <- <-. reflexivity. Qed.
Lemma mono_fail : forall A, mono (fun _ => Fail : res (A * bytes)).
Proof. intros A s tl. split; discriminate. Qed.
Lemma mono_bind : forall A B (p : dec A) (f : A -> dec B), mono p -> (forall x, mono (f x)) -> mono (dbind p f).
Proof.
  intros A B p f Mp Mf s tl. unfold dbind. destruct (Mp s tl) as (M1 & M2). destruct (p s) as [[x r]| |]; cbn [rbind fst snd].
  - rewrite (M1 x r eq_refl). cbn [rbind fst snd]. apply Mf.
  - split; discriminate.
  - rewrite (M2 eq_refl). cbn [rbind]. split; [discriminate|auto].
Qed.
Lemma mono_id : mono dec_id.
Proof.
  apply mono_bind; [apply mono_take|]. intros b s tl. rewrite app_length.
  destruct (N.ltb_spec (N.of_nat (length s)) (of_le b)); [split; discriminate|].
  destruct (N.ltb_spec (N.of_nat (length s + length tl)) (of_le b)); [lia|].
  apply (@mono_bind _ _ (dec_take (N.to_nat (of_le b))) (fun v s' => rmap (fun i => (i, s')) (id_deserialize v))); [apply mono_take|].
  intros v s' tl'. unfold id_deserialize. destruct (length v =? ID_LEN); cbn [rmap rbind]; split; try discriminate; auto.
  intros x r E. injection E as <- <-. reflexivity.
Qed.
Lemma mono_addr : mono dec_addr.
Proof.
  apply mono_bind; [apply mono_take|]. intro ip. apply mono_bind; [apply mono_take|]. intros p s tl.
  destruct ip as [|a [|b [|c [|d [|]]]]]; try (split; discriminate). split; [|discriminate]. intros x r E. injection E as <- <-. reflexivity.
Qed.
Lemma mono_slot : mono dec_slot.
Proof.
  apply mono_bind; [apply mono_take|]. intro tag.
  assert (M : mono (dbind dec_id (fun i => dbind dec_addr (fun a => dret (Some (mk_node i a None)))))).
  { apply mono_bind; [apply mono_id|]. intro i. apply mono_bind; [apply mono_addr|]. intro. apply mono_ret. }
  destruct tag as [|b [|]]; [apply mono_fail| |destruct b; apply mono_fail].
  destruct b; try apply mono_fail; [apply mono_ret|exact M].
Qed.
Lemma mono_seq : forall A (p : dec A) n, mono p -> mono (dec_seq p n).
Proof.
  intros A p n M. induction n as [|n IH]; cbn [dec_seq]; [apply mono_ret|]. apply mono_bind; auto. intro x.
  apply mono_bind; auto. intro. apply mono_ret.
Qed.
Lemma mono_bucket : mono dec_bucket.
Proof.
  apply mono_bind; [apply mono_bind; [apply mono_take|intro; apply mono_ret]|]. intro d.
  apply mono_bind; [apply mono_seq; apply mono_slot|]. intro. apply mono_ret.
Qed.
(** Each bucket takes at least 8 bytes. *)
Definition eats {A} (k : nat) (p : dec A) : Prop := forall s x r, p s = Val (x, r) -> length r + k <= length s.
Lemma eats_bind : forall A B j k (p : dec A) (f : A -> dec B), eats j p -> (forall x, eats k (f x)) -> eats (j + k) (dbind p f).
Proof.
  intros A B j k p f Ep Ef s x r H. unfold dbind in H. destruct (p s) as [[y q]| |] eqn:E; try discriminate. cbn [rbind fst snd] in H.
  apply Ep in E. apply Ef in H. lia.
Qed.
Lemma eats_take : forall n, eats n (dec_take n).
Proof.
  intros n s x r H. unfold dec_take in H. destruct (Nat.ltb_spec (length s) n); [discriminate|]. injection H as <- <-. rewrite skipn_length. lia.
Qed.
Lemma eats_ret : forall A (x : A), eats 0 (dret x).
Proof. intros A x s y r H. injection H as <- <-. lia. Qed.
Lemma eats_le : forall A j k (p : dec A), j <= k -> eats k p -> eats j p.
Proof. intros A j k p L E s x r H. apply E in H. lia. Qed.
Lemma eats_fail : forall A k, eats k (fun _ => Fail : res (A * bytes)).
Proof. intros A k s x r H. discriminate. Qed.
Lemma eats_id : eats 8 dec_id.
Proof.
  apply (@eats_bind _ _ 8 0); [apply eats_take|]. intros b s x r H. destruct (_ <? _)%N; [discriminate|]. revert s x r H.
  apply (@eats_le _ 0 (N.to_nat (of_le b) + 0)); [lia|].
  apply eats_bind; [apply eats_take|]. intros v s x r H. unfold id_deserialize in H. destruct (length v =? ID_LEN); [|discriminate].
  injection H as <- <-. lia.
Qed.
Lemma eats_addr : eats 6 dec_addr.
Proof.
  apply (@eats_bind _ _ 4 2); [apply eats_take|]. intro ip. apply (@eats_bind _ _ 2 0); [apply eats_take|]. intros p s x r H.
  destruct ip as [|a [|b [|c [|d [|]]]]]; try discriminate. injection H as <- <-. lia.
Qed.
Lemma eats_slot : eats 1 dec_slot.
Proof.
  apply (@eats_bind _ _ 1 0); [apply eats_take|]. intro tag.
  assert (M : eats 0 (dbind dec_id (fun i => dbind dec_addr (fun a => dret (Some (mk_node i a None)))))).
  { apply (@eats_le _ 0 (8 + (6 + 0))); [lia|]. apply eats_bind; [apply eats_id|]. intro. apply eats_bind; [apply eats_addr|]. intro. apply eats_ret. }
  destruct tag as [|b [|]]; [apply eats_fail| |destruct b; apply eats_fail]. destruct b; try apply eats_fail; [apply eats_ret|exact M].
Qed.
Lemma eats_seq : forall A k (p : dec A) n, eats k p -> eats (n * k) (dec_seq p n).
Proof.
  intros A k p n E. induction n as [|n IH]; cbn [dec_seq Nat.mul]; [apply eats_ret|]. apply eats_bind; auto. intro x.
  apply (@eats_le _ (n * k) (n * k + 0)); [lia|]. apply eats_bind; auto. intro. apply eats_ret.
Qed.
Lemma eats_bucket : eats 8 dec_bucket.
Proof.
  apply (@eats_le _ 8 (8 + 0 + (8 * 1 + 0))); [lia|]. apply eats_bind; [apply eats_bind; [apply eats_take|intro; apply eats_ret]|]. intro d.
  apply eats_bind; [apply eats_seq; apply eats_slot|]. intro. apply eats_ret.
Qed.
Lemma seq_panic_le : forall A (p : dec A) n m s, dec_seq p n s = Panic -> n <= m -> dec_seq p m s = Panic.
Proof.
  intros A p n. induction n as [|n IH]; intros m s H L; [discriminate|]. destruct m as [|m]; [lia|].
  cbn [dec_seq] in *. unfold dbind in *. destruct (p s) as [[x r]| |]; cbn [rbind fst snd] in *; auto; try discriminate.
  destruct (dec_seq p n r) as [[y q]| |] eqn:E; cbn [rbind] in H; try discriminate.
  rewrite (IH m r E) by lia. reflexivity.
Qed.
Lemma mono_buckets : mono dec_buckets.
Proof.
  apply mono_bind; [apply mono_take|]. intros b s tl. rewrite app_length.
  set (n1 := if (N.of_nat (length s) <? of_le b)%N then S (length s) else N.to_nat (of_le b)).
  set (n2 := if (N.of_nat (length s + length tl) <? of_le b)%N then S (length s + length tl) else N.to_nat (of_le b)).
  assert (L : n1 <= n2). { unfold n1, n2. destruct (N.ltb_spec (N.of_nat (length s)) (of_le b)), (N.ltb_spec (N.of_nat (length s + length tl)) (of_le b)); lia. }
  destruct (@mono_seq _ dec_bucket n1 mono_bucket s tl) as (M1 & M2). split.
  - intros x r H. pose proof (@eats_seq _ 8 dec_bucket n1 eats_bucket _ _ _ H) as E.
    assert (n1 = n2) as <-; [|auto]. unfold n1, n2 in *.
    destruct (N.ltb_spec (N.of_nat (length s)) (of_le b)); [lia|]. destruct (N.ltb_spec (N.of_nat (length s + length tl)) (of_le b)); [lia|reflexivity].
  - intro H. eapply seq_panic_le; [apply M2; exact H|exact L].
Qed.
Lemma mono_table : mono dec_table.
Proof. apply mono_bind; [apply mono_id|]. intro o. apply mono_bind; [apply mono_buckets|]. intro. apply mono_ret. Qed.
Lemma load_dec : forall s, load_table s = rmap fst (dec_table s).
Proof. reflexivity. Qed.

(** ** C48 *)
(** Any well-formed table comes back, whatever follows it in the file; every
    proper prefix of the file is rejected. *)
Theorem C48_store_load : forall t, storable t ->
  (forall tl, load_table (enc_table t ++ tl) = Val (forget t)) /\
  (forall k, k < length (enc_table t) -> load_table (firstn k (enc_table t)) = Fail).
Proof.
  intros t S. split.
  - intro tl. rewrite load_dec, dec_table_enc by auto. reflexivity.
  - intros k K. rewrite load_dec. pose proof (@dec_table_enc t [] S) as E. rewrite app_nil_r in E.
    destruct (mono_table (firstn k (enc_table t)) (skipn k (enc_table t))) as (M1 & M2). rewrite firstn_skipn in *.
    destruct (dec_table (firstn k (enc_table t))) as [[x r]| |]; [|reflexivity|].
    + specialize (M1 x r eq_refl). rewrite E in M1. injection M1 as _ Q. apply (f_equal (@length _)) in Q.
      rewrite app_length, skipn_length in Q. cbn [length] in Q. lia.
    + specialize (M2 eq_refl). congruence.
Qed.
(** Every table the client can have is well-formed. *)
Theorem C48_reachable_storable : forall t, reachable t -> storable t.
Proof.
  intros t R. pose proof (reachable_inv R) as I.
  pose proof (reachable_addrs R) as WA.
  destruct (i_len I) as (L1 & L2). unfold n_buckets in *.
  split; [exact (i_own I)|]. split; [exact L2|]. apply Forall_forall. intros b Hb. apply In_nth_error in Hb. destruct Hb as (i & Hi).
  destruct (i_bkt I _ Hi) as (W1 & W2 & W3). split; [exact W1|]. split.
  - assert (i < length (t_data t)) by (apply nth_error_Some; congruence). rewrite W2. unfold n_buckets. destruct (Nat.eqb_spec i (length (t_data t) - 1)); lia.
  - intros n Hn. apply in_flatten in Hn. fold (iter_nodes b) in Hn. split; [apply W3; auto|].
    apply WA. apply in_nodes; eauto.
Qed.
(** After a restart: same own id, buckets, ids, addresses; no node counts as
    good until it is heard from again. The table is again one of those all
    other properties speak about. *)
Theorem C48_restart : forall t now, reachable t -> exists t', load_table (enc_table t) = Val t' /\ reachable t' /\
    t_own t' = t_own t /\ n_buckets t' = n_buckets t /\
    (forall i, map (fun n => (n_id n, n_addr n)) (bucket_nodes t' i) = map (fun n => (n_id n, n_addr n)) (bucket_nodes t i)) /\
    count (fresh now) (t_nodes t') = 0.
Proof.
  change fresh with good.
  intros t now R. pose proof (C48_reachable_storable R) as S. exists (forget t). split.
  { rewrite <- (app_nil_r (enc_table t)). apply C48_store_load; auto. }
  split; [apply rc_restart; auto|].
  split; [reflexivity|]. split; [unfold n_buckets, forget; cbn [t_data]; apply map_length|]. split.
  - intro i. unfold bucket_nodes, forget. cbn [t_data]. rewrite nth_error_map. destruct (nth_error (t_data t) i) as [b|]; [|reflexivity].
    cbn [option_map]. rewrite iter_forget, map_map. reflexivity.
  - apply count_none. intros n Hn. rewrite nodes_forget in Hn. apply in_map_iff in Hn. destruct Hn as (m & <- & M). reflexivity.
Qed.
Example C48_example : exists t, run (t_default (sid 0 0)) [ev 7 128 1; ev 9 3 4] = Val t /\ storable t /\
  length (enc_table t) = 28 + 8 + 8 + 6 + 2 * 35 /\ load_table (enc_table t) = Val (forget t) /\ forget t <> t /\
  load_table (firstn 119 (enc_table t)) = Fail.
Proof.
  eexists. split; [vm_compute; reflexivity|]. split; [|repeat split; try (vm_compute; reflexivity); discriminate].
  split; [reflexivity|]. split; [cbn; lia|]. constructor; [|constructor]. split; [reflexivity|]. split; [cbn; lia|].
  intros n Hn. cbn in Hn. repeat (destruct Hn as [Hn|Hn]; [try discriminate; injection Hn as <-; split; reflexivity|]). destruct Hn.
Qed.

(** ** C72: damaged files *)
(** Whatever the file holds, an accepted table has 8 slots per bucket, 20-byte
    ids, 16-bit ports and no node that counts as good. *)
Definition shaped (t : table) : Prop := wf_id (t_own t) /\
  Forall (fun b => length (b_data b) = 8 /\ forall n, In (Some n) (b_data b) -> wf_node n /\ n_seen n = None) (t_data t).
Definition gives {A} (P : A -> Prop) (p : dec A) : Prop := forall s x r, p s = Val (x, r) -> P x.
Lemma gives_bind : forall A B (P : A -> Prop) (Q : B -> Prop) (p : dec A) (f : A -> dec B),
  gives P p -> (forall x, P x -> gives Q (f x)) -> gives Q (dbind p f).
Proof.
  intros A B P Q p f Gp Gf s x r H. unfold dbind in H. destruct (p s) as [[y q]| |] eqn:E; try discriminate. cbn [rbind fst snd] in H.
  eapply Gf; [eapply Gp; exact E|exact H].
Qed.
Lemma gives_ret : forall A (P : A -> Prop) x, P x -> gives P (dret x).
Proof. intros A P x H s y r E. injection E as <- <-. exact H. Qed.
Lemma gives_take : forall n, gives (fun l => length l = n) (dec_take n).
Proof.
  intros n s x r H. unfold dec_take in H. destruct (Nat.ltb_spec (length s) n); [discriminate|]. injection H as <- <-. apply firstn_length_le. lia.
Qed.
Lemma gives_any : forall A (p : dec A), gives (fun _ => True) p.
Proof. intros A p s x r _. exact I. Qed.
Lemma gives_id : gives wf_id dec_id.
Proof.
  apply (@gives_bind _ _ (fun _ => True)); [apply gives_any|]. intros b _ s x r H. destruct (_ <? _)%N; [discriminate|]. revert s x r H.
  apply (@gives_bind _ _ (fun _ => True)); [apply gives_any|]. intros v _ s x r H. unfold id_deserialize in H.
  destruct (Nat.eqb_spec (length v) ID_LEN); [|discriminate]. injection H as <- <-. auto.
Qed.
Lemma gives_addr : gives wf_addr dec_addr.
Proof.
  apply (@gives_bind _ _ (fun _ => True)); [apply gives_any|]. intros ip _. eapply gives_bind; [apply gives_take|]. intros p L s x r H.
  destruct ip as [|a [|b [|c [|d [|]]]]]; try discriminate. injection H as <- <-. unfold wf_addr. cbn [port].
  destruct p as [|p1 [|p2 [|]]]; try discriminate L. pose proof (of_be_lt (rev [p1; p2])) as B. exact B.
Qed.
Lemma gives_slot : gives (fun o => forall n, o = Some n -> wf_node n /\ n_seen n = None) dec_slot.
Proof.
  apply (@gives_bind _ _ (fun _ => True)); [apply gives_any|]. intros tag _.
  assert (M : gives (fun o => forall n, o = Some n -> wf_node n /\ n_seen n = None) (dbind dec_id (fun i => dbind dec_addr (fun a => dret (Some (mk_node i a None)))))).
  { eapply gives_bind; [apply gives_id|]. intros i Wi. eapply gives_bind; [apply gives_addr|]. intros a Wa. apply gives_ret.
    intros n E. injection E as <-. repeat split; auto. }
  destruct tag as [|b [|]]; [intros s x r H; discriminate| |intros s x r H; destruct b; discriminate].
  destruct b; try (intros s x r H; discriminate); [apply gives_ret; discriminate|exact M].
Qed.
Lemma gives_seq : forall A (P : A -> Prop) (p : dec A) n, gives P p -> gives (fun l => length l = n /\ Forall P l) (dec_seq p n).
Proof.
  intros A P p n G. induction n as [|n IH]; cbn [dec_seq]; [apply gives_ret; auto|].
  eapply gives_bind; [exact G|]. intros x Px. eapply gives_bind; [exact IH|]. intros l (L1 & L2). apply gives_ret. cbn. auto.
Qed.
Lemma gives_bucket : gives (fun b => length (b_data b) = 8 /\ forall n, In (Some n) (b_data b) -> wf_node n /\ n_seen n = None) dec_bucket.
Proof.
  apply (@gives_bind _ _ (fun _ => True)); [apply gives_any|]. intros d _. eapply gives_bind; [apply gives_seq; apply gives_slot|].
  intros l (L1 & L2). apply gives_ret. cbn [b_data]. split; [exact L1|]. intros n Hn. rewrite Forall_forall in L2. eapply L2; eauto.
Qed.
Theorem C72_loaded_shape_partial : forall s t, load_table s = Val t -> shaped t.
Proof.
  intros s t H. rewrite load_dec in H. destruct (dec_table s) as [[x r]| |] eqn:E; try discriminate. injection H as <-. revert s x r E.
  change (gives shaped dec_table). eapply gives_bind; [apply gives_id|]. intros o Wo.
  eapply (@gives_bind _ _ (Forall (fun b => length (b_data b) = 8 /\ forall n, In (Some n) (b_data b) -> wf_node n /\ n_seen n = None)));
    [|intros l Fl; apply gives_ret; split; auto].
  unfold dec_buckets. apply (@gives_bind _ _ (fun _ => True)); [apply gives_any|]. intros b _ s x r H.
  apply (gives_seq _ gives_bucket) in H. apply H.
Qed.
(** A file of 8 zero bytes aborts the program at start-up, and one that claims
    no buckets is accepted although every use of the table then aborts. *)
Definition no_buckets_file : bytes := enc_id (sid 1 2) ++ enc_u64 0.
Theorem C72_damaged_refuted : load_table (enc_u64 0) = Panic /\
  (exists t, load_table no_buckets_file = Val t /\ (forall now id a, touch_node now id a t = Panic) /\ forall now id, find_node now t id = Panic).
Proof.
  split; [vm_compute; reflexivity|]. eexists. split; [vm_compute; reflexivity|]. split; intros; reflexivity.
Qed.

Print Assumptions C48_store_load.
Print Assumptions C48_reachable_storable.
Print Assumptions C48_restart.
Print Assumptions C72_loaded_shape_partial.
Print Assumptions C72_damaged_refuted.
