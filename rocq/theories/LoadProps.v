(** C72: exactly which routing table files are accepted, which abort the
    program, and when an accepted one can be used. *)
From Coq Require Import List NArith ZArith Lia Bool Arith Permutation.
From Coq Require Import Init.Byte.
From Verif Require Import Base BitSpec IdModel IdProofs IdProps WireModel TableModel TableSpec TableProofs TableProofs2 TableProps StoreProps.
Import ListNotations.
Set Implicit Arguments.

(** ** what each reader takes *)
(** It accepts exactly the encodings of the values that are fine, and leaves
    what follows. *)
Definition exactly {A} (p : dec A) (enc : A -> bytes) (ok : A -> Prop) : Prop :=
  forall s x r, p s = Val (x, r) <-> ok x /\ s = enc x ++ r.
Lemma dbind_val : forall A B (p : dec A) (f : A -> dec B) s y r, dbind p f s = Val (y, r) <-> exists x q, p s = Val (x, q) /\ f x q = Val (y, r).
Proof.
  intros A B p f s y r. unfold dbind. destruct (p s) as [[x q]| |]; cbn [rbind fst snd]; split.
  - intro H. exists x, q. auto.
  - intros (x' & q' & E & H). injection E as <- <-. exact H.
  - discriminate.
  - intros (x' & q' & E & H). discriminate.
  - discriminate.
  - intros (x' & q' & E & H). discriminate.
Qed.
Lemma dbind_panic : forall A B (p : dec A) (f : A -> dec B) s, dbind p f s = Panic <-> p s = Panic \/ exists x q, p s = Val (x, q) /\ f x q = Panic.
Proof.
  intros A B p f s. unfold dbind. destruct (p s) as [[x q]| |]; cbn [rbind fst snd]; split.
  - intro H. right. exists x, q. auto.
  - intros [E|(x' & q' & E & H)]; [discriminate|]. injection E as <- <-. exact H.
  - discriminate.
  - intros [E|(x' & q' & E & H)]; discriminate.
  - auto.
  - auto.
Qed.
Lemma ex_take : forall n, exactly (dec_take n) (fun v => v) (fun v => length v = n).
Proof.
  intros n s x r. split.
  - intro H. split; [eapply gives_take; exact H|]. unfold dec_take in H. destruct (length s <? n); [discriminate|].
    injection H as <- <-. symmetry. apply firstn_skipn.
  - intros (L & ->). apply take_app. exact L.
Qed.
Lemma take_no_panic : forall n s, dec_take n s <> Panic.
Proof. intros n s. unfold dec_take. destruct (_ <? _); discriminate. Qed.
Definition u64 (n : nat) : Prop := (N.of_nat n < 2 ^ 64)%N.
Lemma le8 : forall v, length v = 8 -> (of_le v < 2 ^ 64)%N /\ le_bytes 8 (of_le v) = v.
Proof.
  intros v L. split; [|rewrite <- L; apply le_bytes_of_le]. unfold of_le. pose proof (of_be_lt (rev v)) as B. rewrite rev_length, L in B. exact B.
Qed.
Lemma of_le8 : forall n, (n < 2 ^ 64)%N -> of_le (le_bytes 8 n) = n.
Proof. intros n H. rewrite of_le_le_bytes. apply N.mod_small. exact H. Qed.
Lemma ex_u64 : exactly dec_u64 enc_u64 u64.
Proof.
  intros s x r. unfold dec_u64, enc_u64, u64. rewrite dbind_val. split.
  - intros (v & q & E & H). apply ex_take in E. destruct E as (L & ->). injection H as <- <-. destruct (le8 _ L) as (B & R).
    rewrite N2Nat.id. split; [exact B|]. rewrite R. reflexivity.
  - intros (B & ->). exists (le_bytes 8 (N.of_nat x)), r. split; [apply ex_take; split; [apply le_bytes_length|reflexivity]|].
    unfold dret. rewrite of_le8 by exact B. rewrite Nat2N.id. reflexivity.
Qed.
Lemma u64_id : forall i, wf_id i -> u64 (length i).
Proof. intros i W. unfold u64. rewrite W. reflexivity. Qed.
(** A length, then as many bytes; the bytes are there. *)
Lemma id_cases : forall s, match dec_id s with
  | Val (x, r) => wf_id x /\ s = enc_id x ++ r
  | Panic => exists v r, u64 (length v) /\ length v <> 20 /\ s = enc_id v ++ r
  | Fail => forall v r, u64 (length v) -> s <> enc_id v ++ r
  end.
Proof.
  intro s. unfold dec_id, dbind at 1. destruct (dec_take 8 s) as [[b q]| |] eqn:E; [| |exfalso; exact (@take_no_panic _ _ E)].
  - cbn [rbind fst snd]. apply ex_take in E. destruct E as (L & ->). destruct (le8 _ L) as (B & R).
    destruct (N.ltb_spec (N.of_nat (length q)) (of_le b)) as [S|S].
    + intros v r U H. unfold enc_id, enc_u64 in H. rewrite <- app_assoc in H. apply app_eq_app in H.
      assert (EQ : b = le_bytes 8 (N.of_nat (length v)) /\ q = v ++ r).
      { destruct H as (l & [(-> & ->)|(H & ->)]).
        - destruct l; [rewrite app_nil_r; auto|]. rewrite app_length, le_bytes_length in L. cbn [length] in L. lia.
        - pose proof (f_equal (@length _) H) as HL. rewrite app_length, le_bytes_length in HL. destruct l; [rewrite app_nil_r in H; auto|]. cbn [length] in HL. lia. }
      destruct EQ as (-> & ->). rewrite of_le8 in S by exact U. rewrite app_length in S. lia.
    + unfold dbind. destruct (dec_take (N.to_nat (of_le b)) q) as [[v r]| |] eqn:T.
      * cbn [rbind fst snd]. apply ex_take in T. destruct T as (LV & ->).
        assert (EB : b = enc_u64 (length v)) by (unfold enc_u64; rewrite LV, N2Nat.id; symmetry; exact R).
        assert (UV : u64 (length v)) by (unfold u64; rewrite LV, N2Nat.id; exact B).
        unfold id_deserialize. destruct (Nat.eqb_spec (length v) ID_LEN) as [LI|LI]; cbn [rmap rbind].
        -- split; [exact LI|]. unfold enc_id. rewrite <- app_assoc, EB. reflexivity.
        -- exists v, r. split; [exact UV|]. split; [exact LI|]. unfold enc_id. rewrite <- app_assoc, EB. reflexivity.
      * exfalso. unfold dec_take in T. destruct (Nat.ltb_spec (length q) (N.to_nat (of_le b))); [lia|discriminate].
      * exfalso. exact (@take_no_panic _ _ T).
  - cbn [rbind]. intros v r U ->. unfold dec_take in E. unfold enc_id, enc_u64 in E. rewrite !app_length, le_bytes_length in E.
    destruct (Nat.ltb_spec (8 + length v + length r) 8); [lia|discriminate].
Qed.
Lemma enc_id_inj : forall v w r q, u64 (length v) -> u64 (length w) -> enc_id v ++ r = enc_id w ++ q -> v = w /\ r = q.
Proof.
  intros v w r q U W H. unfold enc_id, enc_u64 in H. rewrite <- !app_assoc in H.
  assert (P : forall (a b c d : bytes), length a = length b -> a ++ c = b ++ d -> a = b /\ c = d).
  { intros a b c d L E. apply app_eq_app in E. destruct E as (l & [(-> & ->)|(-> & ->)]); rewrite app_length in L; destruct l; cbn in L; try lia; rewrite app_nil_r; auto. }
  apply P in H; [|rewrite !le_bytes_length; reflexivity]. destruct H as (H1 & H2).
  apply (f_equal of_le) in H1. rewrite !of_le8 in H1 by assumption. apply P in H2; [exact H2|lia].
Qed.
Lemma ex_id : exactly dec_id enc_id wf_id.
Proof.
  intros s x r. pose proof (id_cases s) as C. split.
  - intro H. rewrite H in C. exact C.
  - intros (W & ->). apply dec_id_enc. exact W.
Qed.
(** The length of an id that is there but is not 20. *)
Definition bad_id (s : bytes) : Prop := exists v r, u64 (length v) /\ length v <> 20 /\ s = enc_id v ++ r.
Lemma id_panic : forall s, dec_id s = Panic <-> bad_id s.
Proof.
  intro s. pose proof (id_cases s) as C. split.
  - intro H. rewrite H in C. exact C.
  - intros (v & r & U & L & E). destruct (dec_id s) as [[x q]| |]; auto.
    + destruct C as (W & C). rewrite E in C. apply enc_id_inj in C; [|exact U|apply u64_id; exact W]. destruct C as (-> & _). exfalso. exact (L W).
    + exfalso. exact (C v r U E).
Qed.
Lemma ex_addr : exactly dec_addr enc_addr wf_addr.
Proof.
  intros s x r. split.
  - intro H. split; [eapply gives_addr; exact H|]. unfold dec_addr in H. apply dbind_val in H. destruct H as (ip & q & E & H).
    apply ex_take in E. destruct E as (L & ->). apply dbind_val in H. destruct H as (p & q' & E & H). apply ex_take in E. destruct E as (LP & ->).
    destruct ip as [|a [|b [|c [|d [|]]]]]; try discriminate L. injection H as <- <-. unfold enc_addr. cbn [addr_octets ip0 ip1 ip2 ip3 port].
    rewrite <- LP. rewrite le_bytes_of_le. rewrite <- app_assoc. reflexivity.
  - intros (W & ->). apply dec_addr_enc. exact W.
Qed.
Lemma addr_no_panic : forall s, dec_addr s <> Panic.
Proof.
  intros s H. unfold dec_addr in H. apply dbind_panic in H. destruct H as [H|(ip & q & _ & H)]; [exact (@take_no_panic _ _ H)|].
  apply dbind_panic in H. destruct H as [H|(p & q' & _ & H)]; [exact (@take_no_panic _ _ H)|]. destruct ip as [|a [|b [|c [|d [|]]]]]; discriminate.
Qed.
Definition fine_slot (o : option node) : Prop := forall n, o = Some n -> wf_node n /\ n_seen n = None.
Lemma ex_slot : exactly dec_slot enc_slot fine_slot.
Proof.
  intros s x r. split.
  - intro H. split; [intros n ->; eapply gives_slot; [exact H|reflexivity]|]. unfold dec_slot in H. apply dbind_val in H. destruct H as (tag & q & E & H).
    apply ex_take in E. destruct E as (L & ->).
    destruct tag as [|b [|]]; try discriminate L. destruct b; try discriminate H.
    + injection H as <- <-. reflexivity.
    + apply dbind_val in H. destruct H as (i & q1 & E1 & H). apply ex_id in E1. destruct E1 as (W1 & ->).
      apply dbind_val in H. destruct H as (a & q2 & E2 & H). apply ex_addr in E2. destruct E2 as (W2 & ->). injection H as <- <-.
      cbn [enc_slot n_id n_addr app]. rewrite <- app_assoc. reflexivity.
  - intros (F & ->). rewrite dec_slot_enc by (intros n E; apply (F n E)). f_equal. f_equal. destruct x as [[i a se]|]; [|reflexivity].
    destruct (F _ eq_refl) as (_ & E). cbn [n_seen] in E. subst se. reflexivity.
Qed.
Lemma slot_panic : forall s, dec_slot s = Panic <-> exists r, s = x01 :: r /\ bad_id r.
Proof.
  intro s. unfold dec_slot. rewrite dbind_panic. split.
  - intros [H|(tag & q & E & H)]; [exfalso; exact (@take_no_panic _ _ H)|]. apply ex_take in E. destruct E as (L & ->).
    destruct tag as [|b [|]]; try discriminate L. destruct b; try discriminate H.
    exists q. split; [reflexivity|]. apply id_panic. apply dbind_panic in H. destruct H as [H|(i & q1 & _ & H)]; [exact H|].
    apply dbind_panic in H. destruct H as [H|(a & q2 & _ & H)]; [exfalso; exact (@addr_no_panic _ H)|discriminate].
  - intros (r & -> & B). right. exists [x01], r. split; [apply (@take_app 1 [x01] r); reflexivity|]. apply dbind_panic. left. apply id_panic. exact B.
Qed.
Lemma ex_seq : forall A (p : dec A) enc ok n, exactly p enc ok -> exactly (dec_seq p n) (flat_map enc) (fun l => length l = n /\ Forall ok l).
Proof.
  intros A p enc ok n EX. induction n as [|n IH]; intros s x r; cbn [dec_seq].
  - unfold dret. split.
    + intro H. injection H as <- <-. auto.
    + intros ((L & _) & ->). destruct x; [reflexivity|discriminate].
  - rewrite dbind_val. split.
    + intros (y & q & E & H). apply EX in E. destruct E as (O & ->). apply dbind_val in H. destruct H as (l & q' & E & H). apply IH in E.
      destruct E as ((L & F) & ->). injection H as <- <-. cbn [length flat_map]. rewrite <- app_assoc. auto.
    + intros ((L & F) & ->). destruct x as [|y l]; [discriminate|]. inversion F as [|? ? O F']; subst. cbn [flat_map]. exists y, (flat_map enc l ++ r).
      split; [apply EX; rewrite <- app_assoc; auto|]. apply dbind_val. exists l, r. split; [|reflexivity]. apply IH. cbn [length] in L. auto.
Qed.
Lemma seq_panic : forall A (p : dec A) enc ok n s, exactly p enc ok ->
  (dec_seq p n s = Panic <-> exists l r, length l < n /\ Forall ok l /\ s = flat_map enc l ++ r /\ p r = Panic).
Proof.
  intros A p enc ok n s EX. revert s. induction n as [|n IH]; intros s; cbn [dec_seq].
  - split; [discriminate|]. intros (l & r & L & _). lia.
  - rewrite dbind_panic. split.
    + intros [H|(y & q & E & H)].
      * exists [], s. cbn [length flat_map app]. repeat split; auto. lia.
      * apply EX in E. destruct E as (O & ->). apply dbind_panic in H. destruct H as [H|(l & q' & _ & H)]; [|discriminate].
        apply IH in H. destruct H as (l & r & L & F & -> & P). exists (y :: l), r. cbn [length flat_map]. rewrite <- app_assoc. repeat split; auto. lia.
    + intros (l & r & L & F & -> & P). destruct l as [|y l]; [left; exact P|right]. inversion F as [|? ? O F']; subst. cbn [length] in L.
      exists y, (flat_map enc l ++ r). split; [apply EX; cbn [flat_map]; rewrite <- app_assoc; auto|]. apply dbind_panic. left. apply IH.
      exists l, r. repeat split; auto. lia.
Qed.
Definition fine_bucket (b : bucket) : Prop := u64 (b_depth b) /\ length (b_data b) = 8 /\ Forall fine_slot (b_data b).
Lemma ex_bucket : exactly dec_bucket enc_bucket fine_bucket.
Proof.
  intros s x r. unfold dec_bucket. rewrite dbind_val. split.
  - intros (d & q & E & H). apply ex_u64 in E. destruct E as (U & ->). apply dbind_val in H. destruct H as (l & q' & E & H).
    apply (@ex_seq _ _ _ _ _ ex_slot) in E. destruct E as ((L & F) & ->). injection H as <- <-. unfold enc_bucket, fine_bucket. cbn [b_depth b_data].
    rewrite <- app_assoc. auto.
  - intros ((U & L & F) & ->). exists (b_depth x), (flat_map enc_slot (b_data x) ++ r). unfold enc_bucket. rewrite <- app_assoc. split; [apply ex_u64; auto|].
    apply dbind_val. exists (b_data x), r. split; [apply (@ex_seq _ _ _ _ _ ex_slot); auto|]. destruct x; reflexivity.
Qed.
(** In the first eight entries of a bucket: a node whose id is not 20 bytes. *)
Definition bad_bucket (s : bytes) : Prop := exists d l r, u64 d /\ length l < 8 /\ Forall fine_slot l /\
  s = enc_u64 d ++ flat_map enc_slot l ++ x01 :: r /\ bad_id r.
Lemma bucket_panic : forall s, dec_bucket s = Panic <-> bad_bucket s.
Proof.
  intro s. unfold dec_bucket. rewrite dbind_panic. split.
  - intros [H|(d & q & E & H)].
    + exfalso. unfold dec_u64 in H. apply dbind_panic in H. destruct H as [H|(v & q & _ & H)]; [exact (@take_no_panic _ _ H)|discriminate].
    + apply ex_u64 in E. destruct E as (U & ->). apply dbind_panic in H. destruct H as [H|(l & q' & _ & H)]; [|discriminate].
      apply (@seq_panic _ _ _ _ _ _ ex_slot) in H. destruct H as (l & r & L & F & -> & P). apply slot_panic in P. destruct P as (r' & -> & B).
      exists d, l, r'. auto.
  - intros (d & l & r & U & L & F & -> & B). right. exists d, (flat_map enc_slot l ++ x01 :: r). split; [apply ex_u64; auto|].
    apply dbind_panic. left. apply (@seq_panic _ _ _ _ _ _ ex_slot). exists l, (x01 :: r). repeat split; auto. apply slot_panic. exists r. auto.
Qed.
Lemma bucket_len8 : forall b, 8 <= length (enc_bucket b).
Proof. apply enc_bucket_len. Qed.
(** The number of buckets, however large, is compared with what is there. *)
Lemma claimed : forall q (c : N) l r, length l <= length q -> q = flat_map enc_bucket l ++ r ->
  (length l < (if (N.of_nat (length q) <? c)%N then S (length q) else N.to_nat c) <-> (N.of_nat (length l) < c)%N).
Proof. intros q c l r L _. destruct (N.ltb_spec (N.of_nat (length q)) c); lia. Qed.
Lemma flat_len : forall l r, length l <= length (flat_map enc_bucket l ++ r).
Proof.
  intros l r. rewrite app_length. assert (length l <= length (flat_map enc_bucket l)); [|lia].
  apply flat_map_len. intros b _. pose proof (enc_bucket_len b). lia.
Qed.
Lemma ex_buckets : exactly dec_buckets (fun l => enc_u64 (length l) ++ flat_map enc_bucket l) (fun l => u64 (length l) /\ Forall fine_bucket l).
Proof.
  intros s x r. unfold dec_buckets. rewrite dbind_val. split.
  - intros (b & q & E & H). apply ex_take in E. destruct E as (L & ->). apply (@ex_seq _ _ _ _ _ ex_bucket) in H. destruct H as ((LX & F) & ->).
    destruct (le8 _ L) as (B & R). pose proof (@flat_len x r) as FL.
    destruct (N.ltb_spec (N.of_nat (length (flat_map enc_bucket x ++ r))) (of_le b)); [lia|].
    split.
    + split; [unfold u64; rewrite LX, N2Nat.id; exact B|exact F].
    + unfold enc_u64. rewrite LX, N2Nat.id, R. rewrite <- app_assoc. reflexivity.
  - intros ((U & F) & ->). exists (enc_u64 (length x)), (flat_map enc_bucket x ++ r). split.
    + apply ex_take. split; [apply le_bytes_length|]. rewrite <- app_assoc. reflexivity.
    + apply (@ex_seq _ _ _ _ _ ex_bucket). split; [|reflexivity]. split; [|exact F]. unfold enc_u64. rewrite of_le8 by exact U.
      pose proof (@flat_len x r) as FL. destruct (N.ltb_spec (N.of_nat (length (flat_map enc_bucket x ++ r))) (N.of_nat (length x))); lia.
Qed.
Lemma buckets_panic : forall s, dec_buckets s = Panic <->
  exists c l r, (N.of_nat (length l) < c < 2 ^ 64)%N /\ Forall fine_bucket l /\ s = le_bytes 8 c ++ flat_map enc_bucket l ++ r /\ bad_bucket r.
Proof.
  intro s. unfold dec_buckets. rewrite dbind_panic. split.
  - intros [H|(b & q & E & H)]; [exfalso; exact (@take_no_panic _ _ H)|]. apply ex_take in E. destruct E as (L & ->). destruct (le8 _ L) as (B & R).
    apply (@seq_panic _ _ _ _ _ _ ex_bucket) in H. destruct H as (l & r & LL & F & -> & P). apply bucket_panic in P.
    exists (of_le b), l, r. rewrite R. repeat split; auto. pose proof (@flat_len l r). eapply claimed; [exact H|reflexivity|exact LL].
  - intros (c & l & r & (C1 & C2) & F & -> & B). right. exists (le_bytes 8 c), (flat_map enc_bucket l ++ r). split; [apply ex_take; split; [apply le_bytes_length|reflexivity]|].
    rewrite of_le8 by exact C2. apply (@seq_panic _ _ _ _ _ _ ex_bucket). exists l, r. repeat split; auto; [|apply bucket_panic; exact B].
    pose proof (@flat_len l r). eapply claimed; [exact H|reflexivity|exact C1].
Qed.

(** ** C72 *)
(** A file is accepted if and only if it starts with the encoding of the table:
    20-byte ids, eight slots per bucket, nothing else. *)
Definition fine (t : table) : Prop := wf_id (t_own t) /\ u64 (length (t_data t)) /\ Forall fine_bucket (t_data t).
Theorem C72_accepts_exact : forall s t, load_table s = Val t <-> fine t /\ exists rest, s = enc_table t ++ rest.
Proof.
  intros s t. rewrite load_dec. unfold dec_table. split.
  - intro H. destruct (dbind dec_id _ s) as [[x r]| |] eqn:E; try discriminate. injection H as ->. apply dbind_val in E. destruct E as (o & q & E & H).
    apply ex_id in E. destruct E as (W & ->). apply dbind_val in H. destruct H as (l & q' & E & H). apply ex_buckets in E. destruct E as ((U & F) & ->).
    injection H as <- <-. split; [repeat split; auto|]. exists q'. unfold enc_table. cbn [t_own t_data]. rewrite <- !app_assoc. reflexivity.
  - intros ((W & U & F) & rest & ->). assert (E : dbind dec_id (fun o => dbind dec_buckets (fun l => dret (mk_table o l))) (enc_table t ++ rest) = Val (t, rest)); [|rewrite E; reflexivity].
    apply dbind_val. exists (t_own t), (enc_u64 (length (t_data t)) ++ flat_map enc_bucket (t_data t) ++ rest). unfold enc_table. rewrite <- !app_assoc.
    split; [apply ex_id; auto|]. apply dbind_val. exists (t_data t), rest. split; [|destruct t; reflexivity]. apply ex_buckets. rewrite <- app_assoc. auto.
Qed.
(** It aborts the program if and only if it is in order up to the length of an
    id, which is not 20 although the file is long enough for it. *)
Theorem C72_aborts_exact : forall s, load_table s = Panic <->
  bad_id s \/
  exists own count buckets rest, wf_id own /\ (N.of_nat (length buckets) < count < 2 ^ 64)%N /\ Forall fine_bucket buckets /\
    s = enc_id own ++ le_bytes 8 count ++ flat_map enc_bucket buckets ++ rest /\ bad_bucket rest.
Proof.
  intro s. rewrite load_dec. unfold dec_table.
  assert (RM : rmap fst (dbind dec_id (fun o => dbind dec_buckets (fun l => dret (mk_table o l))) s) = Panic <->
    dbind dec_id (fun o => dbind dec_buckets (fun l => dret (mk_table o l))) s = Panic).
  { destruct (dbind dec_id _ s) as [?| |]; cbn [rmap rbind]; split; auto; discriminate. }
  rewrite RM. clear RM. rewrite dbind_panic. split.
  - intros [H|(o & q & E & H)]; [left; apply id_panic; exact H|right]. apply ex_id in E. destruct E as (W & ->). apply dbind_panic in H.
    destruct H as [H|(l & q' & _ & H)]; [|discriminate]. apply buckets_panic in H. destruct H as (c & l & r & C & F & -> & B). exists o, c, l, r. auto.
  - intros [H|(o & c & l & r & W & C & F & -> & B)]; [left; apply id_panic; exact H|right].
    exists o, (le_bytes 8 c ++ flat_map enc_bucket l ++ r). split; [apply ex_id; auto|]. apply dbind_panic. left. apply buckets_panic. exists c, l, r. auto.
Qed.

(** ** using an accepted table *)
(** At least one bucket, and depths of 1 to 160 for all but the last. *)
Definition inner_ok (t : table) : Prop := t_data t <> [] /\ Forall (fun b => 1 <= b_depth b <= 160) (removelast (t_data t)).
(** No more than 161 buckets, the last one less deep than there are buckets. *)
Definition last_ok (t : table) : Prop := length (t_data t) <= 161 /\ forall l b, t_data t = l ++ [b] -> b_depth b < length (t_data t).
Definition solid (t : table) : Prop := wf_id (t_own t) /\
  Forall (fun b => wf_slots b /\ forall n, In n (iter_nodes b) -> wf_id (n_id n)) (t_data t).

Lemma last_split : forall A (l : list A), l <> [] -> exists b, l = removelast l ++ [b] /\ rev l = b :: rev (removelast l).
Proof.
  intros A l H. destruct (exists_last H) as (a & b & ->). exists b. rewrite removelast_last, rev_app_distr. auto.
Qed.
Lemma idx_ok : forall t id, t_data t <> [] -> exists i b, find_bucket_idx t id = Val i /\ nth_error (t_data t) i = Some b.
Proof.
  intros t id N. unfold find_bucket_idx. assert (L : 0 < length (t_data t)) by (destruct (t_data t); [congruence|cbn; lia]).
  assert (X : forall i, i < length (t_data t) -> exists b, nth_error (t_data t) i = Some b).
  { intros i Hi. destruct (nth_error (t_data t) i) as [b|] eqn:E; [eauto|]. apply nth_error_None in E. lia. }
  destruct (t_data t) as [|b0 l] eqn:E; [congruence|]. rewrite <- E in *. clear E.
  destruct (first_diff_bit_idx (t_own t) id) as [k|].
  - destruct (Nat.leb_spec (length (t_data t)) k).
    + destruct (X (length (t_data t) - 1)) as (b & B); [lia|]. eauto.
    + destruct (X k) as (b & B); [lia|]. eauto.
  - destruct (X (length (t_data t) - 1)) as (b & B); [lia|]. eauto.
Qed.
(** Lookups work if and only if there is a bucket. *)
Theorem C72_lookup_exact : forall t, (t_data t <> [] <-> forall now id, find_node now t id <> Panic) /\
  (t_data t <> [] <-> forall id, contains_node t id <> Panic) /\ (t_data t <> [] <-> forall now id, get_closest_nodes now t id <> Panic).
Proof.
  intro t. repeat split.
  - intros N now id. destruct (idx_ok t id N) as (i & b & E & B). unfold find_node, get_bucket, get_closest_nodes. rewrite E. cbn [rbind]. rewrite B. cbn [rbind].
    destruct (get_node b id); [discriminate|]. cbn [rmap rbind]. discriminate.
  - intros H E. apply (H 0%N []). unfold find_node, get_bucket, find_bucket_idx. rewrite E. reflexivity.
  - intros N id. destruct (idx_ok t id N) as (i & b & E & B). unfold contains_node, get_bucket. rewrite E. cbn [rbind]. rewrite B. discriminate.
  - intros H E. apply (H []). unfold contains_node, get_bucket, find_bucket_idx. rewrite E. reflexivity.
  - intros N now id. destruct (idx_ok t id N) as (i & b & E & B). unfold get_closest_nodes. rewrite E. discriminate.
  - intros H E. apply (H 0%N []). unfold get_closest_nodes, find_bucket_idx. rewrite E. reflexivity.
Qed.

(** ** refreshing *)
Lemma loaded_unseen : forall s t n, load_table s = Val t -> In n (t_nodes t) -> n_seen n = None.
Proof.
  intros s t n H I. apply C72_loaded_shape_partial in H. destruct H as (_ & F). unfold t_nodes in I. apply in_flat_map in I. destruct I as (b & IB & IN).
  rewrite Forall_forall in F. destruct (F b IB) as (_ & G). apply G. apply in_flatten. exact IN.
Qed.
Lemma loaded_solid : forall s t, load_table s = Val t -> solid t.
Proof.
  intros s t H. apply C72_loaded_shape_partial in H. destruct H as (W & F). split; [exact W|]. rewrite Forall_forall in *. intros b B.
  destruct (F b B) as (L & G). split; [exact L|]. intros n I. apply in_flatten in I. apply (G n I).
Qed.
Lemma loaded_not_full : forall s t b now, load_table s = Val t -> In b (t_data t) -> is_full now b = false.
Proof.
  intros s t b now H I. destruct (is_full now b) eqn:E; auto. destruct (loaded_solid _ H) as (_ & F). rewrite Forall_forall in F. destruct (F b I) as (W & _).
  apply (is_full_spec now W) in E. rewrite count_none in E; [discriminate|]. intros n N. unfold good. rewrite (@loaded_unseen s t n H); [reflexivity|].
  unfold t_nodes. apply in_flat_map. exists b. auto.
Qed.
Lemma refresh_one : forall own b d, wf_id own -> 20 <= length (fst d) -> 8 <= length (snd d) ->
  if (1 <=? b_depth b) && (b_depth b <=? 160) then exists x, refresh_id own b d = Val x else refresh_id own b d = Panic.
Proof.
  intros own b d W D1 D2. unfold refresh_id. destruct (b_depth b) as [|k]; [reflexivity|]. cbn [Nat.leb andb]. change (S k <=? 160) with (k <=? 159).
  destruct (C05_id_bit_access own k W) as (A & B). destruct (Nat.leb_spec k 159).
  - destruct A as (_ & _ & (x & v & F1 & F2 & _)); [lia|]. rewrite F1. cbn [rbind]. destruct (C08_id_randomize x k F2) as (Rz & _).
    destruct (Rz (fst d) (snd d)) as (y & Y1 & _); [lia|lia|]. eauto.
  - destruct B as (_ & B & _); [lia|]. rewrite B. reflexivity.
Qed.

Definition depth_ok (b : bucket) : Prop := 1 <= b_depth b <= 160.
Lemma refresh_all : forall now own bs draws, wf_id own -> enough draws -> length bs <= length draws -> Forall depth_ok bs -> exists l, refresh_ids now own bs draws = Val l.
Proof.
  intros now own bs. induction bs as [|b bs IH]; intros draws W E L F; cbn [refresh_ids]; [eauto|].
  destruct draws as [|d ds]; [cbn in L; lia|]. inversion E as [|? ? (D1 & D2) E']; subst. inversion F as [|? ? O F']; subst. cbn [length] in L.
  destruct (IH ds W E') as (l & R); [lia|exact F'|]. destruct (is_full now b); [eauto|].
  pose proof (@refresh_one own b d W D1 D2) as X. destruct O as (O1 & O2). apply Nat.leb_le in O1, O2. rewrite O1, O2 in X. destruct X as (x & X).
  rewrite X, R. cbn. eauto.
Qed.
Lemma refresh_bad : forall now own bs draws, wf_id own -> enough draws -> length bs <= length draws -> (forall b, In b bs -> is_full now b = false) ->
  ~ Forall depth_ok bs -> refresh_ids now own bs draws = Panic.
Proof.
  intros now own bs. induction bs as [|b bs IH]; intros draws W E L NF F; [exfalso; apply F; constructor|]. cbn [refresh_ids].
  destruct draws as [|d ds]; [cbn in L; lia|]. inversion E as [|? ? (D1 & D2) E']; subst. cbn [length] in L.
  rewrite NF by (left; reflexivity). pose proof (@refresh_one own b d W D1 D2) as X.
  destruct ((1 <=? b_depth b) && (b_depth b <=? 160)) eqn:O; [|rewrite X; reflexivity]. destruct X as (x & X). rewrite X. cbn [rbind].
  rewrite (IH ds); auto; [lia|intros; apply NF; right; auto|]. intro F'. apply F. constructor; auto. apply andb_true_iff in O. destruct O as (O1 & O2).
  apply Nat.leb_le in O1, O2. split; assumption.
Qed.
Lemma removelast_in : forall A (l : list A) x, In x (removelast l) -> In x l.
Proof.
  intros A l x. destruct l as [|a l]; [intros []|]. intro H. rewrite (@app_removelast_last _ (a :: l) a) by discriminate. apply in_or_app. left. exact H.
Qed.
Lemma refresh_ok : forall now t draws, solid t -> inner_ok t -> enough draws -> length (t_data t) <= length draws -> iter_over_ids now t draws <> Panic.
Proof.
  intros now t draws (W & _) (N & F) E L. destruct (last_split N) as (b & EB & R). unfold iter_over_ids. rewrite R.
  destruct (@refresh_all now (t_own t) (removelast (t_data t)) draws W E) as (l & X); [|exact F|rewrite X; discriminate].
  rewrite EB, app_length in L. cbn in L. lia.
Qed.
(** Just loaded, a table can be refreshed if and only if it has a bucket and the
    depths of all but the last are from 1 to 160. *)
Theorem C72_refresh_exact : forall s t now draws, load_table s = Val t -> enough draws -> length (t_data t) <= length draws ->
  (iter_over_ids now t draws <> Panic <-> inner_ok t).
Proof.
  intros s t now draws H E L. split; [|intro; apply refresh_ok; auto; eapply loaded_solid; exact H]. intro NP.
  assert (N : t_data t <> []) by (intro X; apply NP; unfold iter_over_ids; rewrite X; reflexivity). split; [exact N|].
  destruct (last_split N) as (b & EB & R). unfold iter_over_ids in NP. rewrite R in NP.
  destruct (Forall_dec depth_ok (fun b => match le_dec 1 (b_depth b), le_dec (b_depth b) 160 with
     | left a, left c => left (conj a c) | right a, _ => right (fun x => a (proj1 x)) | _, right c => right (fun x => c (proj2 x)) end) (removelast (t_data t))) as [F|F]; [exact F|].
  exfalso. apply NP. rewrite refresh_bad; auto; [apply (loaded_solid _ H)| |].
  - rewrite EB, app_length in L. cbn in L. lia.
  - intros c C. eapply loaded_not_full; [exact H|]. apply removelast_in. exact C.
Qed.

(** ** touching *)
Lemma split_ok : forall t, solid t -> inner_ok t -> (forall l b, t_data t = l ++ [b] -> b_depth b < 160) ->
  exists t', t_split t = Val t' /\ solid t' /\ inner_ok t' /\ t_own t' = t_own t /\
  exists l b b1 b2, t_data t = l ++ [b] /\ t_data t' = l ++ [b1; b2] /\ b_depth b1 = S (b_depth b) /\ b_depth b2 = S (b_depth b).
Proof.
  intros t (W & F) (N & I) D. destruct (last_split N) as (b & EB & R). specialize (D _ _ EB).
  assert (FB : wf_slots b /\ forall n, In n (iter_nodes b) -> wf_id (n_id n)).
  { rewrite Forall_forall in F. apply F. rewrite EB. apply in_or_app. right. left. reflexivity. }
  destruct FB as (WS & WN). unfold t_split. rewrite R, (@b_split_spec b WS D WN). cbn [rbind fst snd].
  unfold bit_based_order. rewrite get_bit_of by auto.
  set (zs := filter (fun n => negb (bit_of (n_id n) (b_depth b))) (iter_nodes b)). set (os := filter (fun n => bit_of (n_id n) (b_depth b)) (iter_nodes b)).
  assert (LB : length (iter_nodes b) <= 8) by (pose proof (flatten_len (b_data b)); unfold wf_slots, K_NODE_PER_BUCKET in WS; unfold iter_nodes; lia).
  assert (ALL : forall f : node -> bool, let c := mk_bucket (S (b_depth b)) (padded (filter f (iter_nodes b))) in wf_slots c /\ forall n, In n (iter_nodes c) -> wf_id (n_id n)).
  { intros f c. split.
    - unfold wf_slots, c. cbn [b_data]. apply padded_length. eapply Nat.le_trans; [apply (count_le f (iter_nodes b))|exact LB].
    - intros n Hn. unfold c, iter_nodes in Hn. cbn [b_data] in Hn. rewrite flatten_padded in Hn. apply filter_In in Hn. apply WN, Hn. }
  assert (FR : Forall (fun b => wf_slots b /\ forall n, In n (iter_nodes b) -> wf_id (n_id n)) (removelast (t_data t))).
  { rewrite Forall_forall in *. intros c C. apply F. apply removelast_in. exact C. }
  assert (RL : forall (l : list bucket) x y, removelast (l ++ [x; y]) = l ++ [x]).
  { intros l x y. change [x; y] with ([x] ++ [y]). rewrite app_assoc. apply removelast_last. }
  assert (FIN : forall f g, let b1 := mk_bucket (S (b_depth b)) (padded (filter f (iter_nodes b))) in let b2 := mk_bucket (S (b_depth b)) (padded (filter g (iter_nodes b))) in
    let t' := mk_table (t_own t) (removelast (t_data t) ++ [b1; b2]) in
    solid t' /\ inner_ok t' /\ t_own t' = t_own t /\ exists l b b1 b2, t_data t = l ++ [b] /\ t_data t' = l ++ [b1; b2] /\ b_depth b1 = S (b_depth b) /\ b_depth b2 = S (b_depth b)).
  { intros f g b1 b2 t'. split; [|split; [|split; [reflexivity|exists (removelast (t_data t)), b, b1, b2; auto]]].
    - split; [exact W|]. cbn [t' t_data]. apply Forall_app. split; [exact FR|]. constructor; [apply ALL|constructor; [apply ALL|constructor]].
    - split; [cbn [t' t_data]; destruct (removelast (t_data t)); discriminate|]. cbn [t' t_data]. rewrite RL. apply Forall_app. split; [exact I|]. constructor; [|constructor].
      cbn [b1 b_depth]. lia. }
  destruct (bit_of (t_own t) (b_depth b)); cbn [rbind fst snd]; (eexists; split; [reflexivity|apply FIN]).
Qed.
Lemma upd_ok : forall t i b b', nth_error (t_data t) i = Some b -> wf_slots b' -> (forall n, In n (iter_nodes b') -> wf_id (n_id n)) -> b_depth b' = b_depth b ->
  solid t -> inner_ok t -> solid (mk_table (t_own t) (upd (t_data t) i b')) /\ inner_ok (mk_table (t_own t) (upd (t_data t) i b')) /\
  (last_ok t -> last_ok (mk_table (t_own t) (upd (t_data t) i b'))).
Proof.
  intros t i b b' E WS WN D (W & F) (N & I). destruct (@upd_split _ _ _ _ b' E) as (x & y & EX & L & U). cbn [t_own t_data].
  unfold solid, inner_ok, last_ok. cbn [t_own t_data]. rewrite U. rewrite EX in F, I, N. split; [|split; [split|]].
  - split; [exact W|]. apply Forall_app in F. destruct F as (F1 & F2). inversion F2; subst. apply Forall_app. split; auto.
  - destruct x; discriminate.
  - destruct (exists_last (l := b' :: y)) as (z & c & Z); [discriminate|]. destruct y as [|c' y].
    + rewrite removelast_last. rewrite removelast_last in I. exact I.
    + change (x ++ b' :: c' :: y) with (x ++ [b'] ++ (c' :: y)). change (x ++ b :: c' :: y) with (x ++ [b] ++ (c' :: y)) in I.
      rewrite !removelast_app in * by discriminate. cbn [app] in *.
      apply Forall_app in I. destruct I as (I1 & I2). apply Forall_app. split; [exact I1|]. inversion I2; subst. constructor; auto. rewrite D. assumption.
  - rewrite EX. rewrite !app_length. cbn [length]. intros (L1 & L2). split; [exact L1|]. intros l c Q. destruct y as [|c' y].
    + apply app_inj_tail in Q. destruct Q as (_ & <-). rewrite D. apply (L2 x b eq_refl).
    + destruct (exists_last (l := c' :: y)) as (z & e & Z); [discriminate|]. rewrite Z in Q, L2. change (x ++ b' :: z ++ [e]) with (x ++ (b' :: z) ++ [e]) in Q. rewrite app_assoc in Q. apply app_inj_tail in Q.
      destruct Q as (_ & <-). rewrite Z. apply (L2 (x ++ b :: z)). rewrite <- app_assoc. reflexivity.
Qed.
Lemma bins_wf : forall now id a ns o, bins now id a ns (Some o) -> wf_id id -> (forall n, In n ns -> wf_id (n_id n)) -> forall n, In n o -> wf_id (n_id n).
Proof.
  intros now id a ns o B W F n I. inversion B; subst; apply in_app_iff in I; destruct I as [I|[<-|I]]; cbn [n_id touch new_good];
    try assumption; apply F; apply in_or_app; auto; right; auto; try (left; reflexivity); right; auto.
Qed.
(** Steps left: until our own bucket is as deep as the id goes, or there are 161 buckets. *)
Definition steps (t : table) (id : ID) (k : nat) : Prop :=
  match first_diff_bit_idx (t_own t) id with
  | Some f => forall l b, t_data t = l ++ [b] -> f - b_depth b < k
  | None => 161 - length (t_data t) < k
  end.
Definition kept (t t' : table) : Prop := solid t' /\ inner_ok t' /\ t_own t' = t_own t /\ (last_ok t -> last_ok t').
Lemma insert_ok : forall fuel now id a t, solid t -> inner_ok t -> wf_id id -> (id <> t_own t \/ last_ok t) -> steps t id fuel ->
  exists t', insert_new_good fuel now id a t = Val t' /\ kept t t'.
Proof.
  induction fuel as [|fuel IH]; intros now id a t S I W C ST.
  - exfalso. unfold steps in ST. destruct I as (N & _). destruct (last_split N) as (b & EB & _). destruct (first_diff_bit_idx (t_own t) id); [specialize (ST _ _ EB)|]; lia.
  - cbn [insert_new_good]. destruct I as (N & IN). destruct (@idx_ok t id N) as (i & b & EI & EB). unfold t_try_insert. rewrite EI. cbn [rbind]. rewrite EB.
    assert (IB : wf_slots b /\ forall n, In n (iter_nodes b) -> wf_id (n_id n)).
    { destruct S as (_ & F). rewrite Forall_forall in F. apply F. eapply nth_error_In. exact EB. }
    destruct IB as (WS & WN). pose proof (@b_try_insert_spec now id a b WS) as T. destruct (b_try_insert now id a b) as [b'| |]; [| |destruct T].
    + destruct T as (T1 & T2 & T3). cbn [rbind]. eexists. split; [reflexivity|].
      destruct (@upd_ok t i b b' EB T1 (bins_wf T3 W WN) T2 S (conj N IN)) as (K1 & K2 & K3). repeat split; auto; try apply K1; try apply K2; apply K3; assumption.
    + cbn [rbind]. destruct (last_split N) as (lb & EL & R). unfold id_within_splittable. rewrite R. cbn [rbind].
      assert (SAME : exists t', Val t = Val t' /\ kept t t') by (exists t; split; [reflexivity|split; [exact S|split; [split; assumption|split; auto]]]).
      unfold id_within_bucket_range.
      assert (GO : b_depth lb < 160 -> (forall f, first_diff_bit_idx (t_own t) id = Some f -> b_depth lb < f) ->
        exists t', (if max_depth_reached t then Val t else rbind (t_split t) (fun t' => insert_new_good fuel now id a t')) = Val t' /\ kept t t').
      { intros D160 DF. unfold max_depth_reached, MAX_BUCKETS. destruct (Nat.eqb_spec (length (t_data t)) 161) as [|NL]; [exact SAME|].
        assert (D' : forall l b0, t_data t = l ++ [b0] -> b_depth b0 < 160).
        { intros l b0 E. rewrite E in EL. apply app_inj_tail in EL. destruct EL as (_ & ->). exact D160. }
        destruct (@split_ok t S (conj N IN) D') as (t' & SP & S' & I' & O' & l & b0 & b1 & b2 & E0 & E1 & D1 & D2). rewrite SP. cbn [rbind].
        assert (B0 : b0 = lb) by (rewrite E0 in EL; apply app_inj_tail in EL; apply EL). subst b0.
        assert (LL : forall l' c, t_data t' = l' ++ [c] -> c = b2).
        { intros l' c Q. rewrite E1 in Q. change [b1; b2] with ([b1] ++ [b2]) in Q. rewrite app_assoc in Q. apply app_inj_tail in Q. symmetry. apply Q. }
        assert (LEN : length (t_data t') = Datatypes.S (length (t_data t))) by (rewrite E0, E1, !app_length; cbn; lia).
        assert (L2 : last_ok t -> last_ok t').
        { intros (LA & LB). specialize (LB _ _ E0). split; [lia|]. intros l' c Q. apply LL in Q. subst c. lia. }
        destruct (IH now id a t' S' I' W) as (t'' & X & (K1 & K2 & K3 & K4)).
        - rewrite O'. destruct C as [C|C]; auto.
        - unfold steps in *. rewrite O'. destruct (first_diff_bit_idx (t_own t) id) as [f|] eqn:FD.
          + intros l' c Q. apply LL in Q. subst c. specialize (ST _ _ E0). specialize (DF f eq_refl). lia.
          + pose proof (first_diff_spec (proj1 S) W) as FS. rewrite FD in FS. destruct C as [C|(C & _)]; [congruence|]. lia.
        - exists t''. split; [exact X|]. split; [exact K1|]. split; [exact K2|]. split; [congruence|]. auto. }
      pose proof (first_diff_spec (proj1 S) W) as FS. destruct (first_diff_bit_idx (t_own t) id) as [f|] eqn:FD.
      * destruct (Nat.ltb_spec (b_depth lb) f) as [LT|LT]; cbn [negb]; [|exact SAME]. apply GO; [destruct FS; lia|]. intros g E. injection E as <-. exact LT.
      * cbn [negb]. destruct C as [C|C]; [congruence|]. destruct (Nat.eq_dec (length (t_data t)) 161) as [E|E].
        { unfold max_depth_reached, MAX_BUCKETS. rewrite E. exact SAME. }
        apply GO; [|discriminate]. destruct C as (C1 & C2). specialize (C2 _ _ EL). lia.
Qed.
Lemma touch_ok : forall now id a t, solid t -> inner_ok t -> wf_id id -> (id <> t_own t \/ last_ok t) -> exists t', touch_node now id a t = Val t' /\ kept t t'.
Proof.
  intros now id a t S I W C. unfold touch_node. destruct (@idx_ok t id (proj1 I)) as (i & b & EI & EB). rewrite EI. cbn [rbind]. rewrite EB.
  destruct (get_node b id) as [n|] eqn:G.
  - eexists. split; [reflexivity|]. assert (IB : wf_slots b /\ forall n, In n (iter_nodes b) -> wf_id (n_id n)).
    { destruct S as (_ & F). rewrite Forall_forall in F. apply F. eapply nth_error_In. exact EB. }
    destruct IB as (WS & WN). apply get_node_some in G. destruct G as (GI & GE).
    assert (IM : In id (map n_id (flatten (b_data b)))) by (apply in_map_iff; exists n; split; [exact GE|exact GI]).
    destruct (touch_first_spec now _ _ IM) as (s1 & m & s2 & A1 & A2 & A3 & A4).
    edestruct (@upd_ok t i b (mk_bucket (b_depth b) (touch_first now id (b_data b))) EB) as (K1 & K2 & K3); [| | |exact S|exact I|split; [exact K1|split; [exact K2|split; [reflexivity|exact K3]]]].
    + unfold wf_slots. cbn [b_data]. rewrite touch_first_length. exact WS.
    + unfold iter_nodes. cbn [b_data]. rewrite A4. intros q Q. apply in_app_iff in Q. unfold iter_nodes in WN. rewrite A1 in WN.
      destruct Q as [Q|[<-|Q]]; [apply WN; apply in_or_app; auto|cbn [n_id touch]; rewrite A2; exact W|apply WN; apply in_or_app; right; right; exact Q].
    + reflexivity.
  - apply insert_ok; auto. unfold steps. pose proof (first_diff_spec (proj1 S) W) as FS. destruct (first_diff_bit_idx (t_own t) id).
    + intros l c _. unfold MAX_BUCKETS. destruct FS. lia.
    + unfold MAX_BUCKETS. lia.
Qed.
Lemma run_ok : forall h t, solid t -> inner_ok t -> Forall wf_touch h -> (Forall (fun e => te_id e <> t_own t) h \/ last_ok t) -> exists t', run t h = Val t' /\ kept t t'.
Proof.
  induction h as [|e h IH]; intros t S I F C; cbn [run].
  - exists t. split; [reflexivity|]. split; [exact S|]. split; [exact I|]. split; auto.
  - inversion F as [|? ? (W & _) F']; subst. destruct (@touch_ok (te_now e) (te_id e) (te_addr e) t S I W) as (t1 & T & (K1 & K2 & K3 & K4)).
    { destruct C as [C|C]; auto. left. inversion C; auto. }
    rewrite T. cbn [rbind]. destruct (IH t1 K1 K2 F') as (t2 & R & (J1 & J2 & J3 & J4)).
    { destruct C as [C|C]; auto. left. rewrite K3. inversion C; auto. }
    exists t2. split; [exact R|]. split; [exact J1|]. split; [exact J2|]. split; [congruence|]. auto.
Qed.
(** A loaded table that can be refreshed once can be used for ever: whatever
    nodes are heard from, other than one with our own id, no touch, lookup or
    refresh aborts. *)
Theorem C72_usable_partial : forall s t h, load_table s = Val t -> inner_ok t -> Forall wf_touch h ->
  (Forall (fun e => te_id e <> t_own t) h \/ last_ok t) ->
  exists t', run t h = Val t' /\
    (forall now id, find_node now t' id <> Panic) /\ (forall now id, get_closest_nodes now t' id <> Panic) /\
    (forall now draws, enough draws -> length (t_data t') <= length draws -> iter_over_ids now t' draws <> Panic).
Proof.
  intros s t h L I F C. destruct (@run_ok h t (loaded_solid _ L) I F C) as (t' & R & (K1 & K2 & _)). exists t'. split; [exact R|].
  destruct (C72_lookup_exact t') as (X1 & _ & X3). split; [apply X1, K2|]. split; [apply X3, K2|]. intros. apply refresh_ok; auto.
Qed.
(** So the file decides: usable if and only if it is refreshable. *)
Theorem C72_usable_exact : forall s t, load_table s = Val t ->
  (inner_ok t <-> forall h, Forall wf_touch h -> Forall (fun e => te_id e <> t_own t) h -> exists t', run t h = Val t' /\
    (forall now id, find_node now t' id <> Panic) /\
    (forall now draws, enough draws -> length (t_data t') <= length draws -> iter_over_ids now t' draws <> Panic)).
Proof.
  intros s t L. split.
  - intros I h F C. destruct (@C72_usable_partial s t h L I F (or_introl C)) as (t' & R & A & _ & B). eauto.
  - intro H. destruct (H [] (Forall_nil _) (Forall_nil _)) as (t' & R & _ & B). cbn [run] in R. injection R as <-.
    pose (draws := repeat (repeat x00 20, repeat true 8) (length (t_data t))).
    assert (E : enough draws).
    { unfold enough. rewrite Forall_forall. intros d D. apply repeat_spec in D. subst d. cbn [fst snd]. rewrite !repeat_length. lia. }
    apply (@C72_refresh_exact s t 0%N draws L E); [|apply B; auto]; unfold draws; rewrite repeat_length; auto.
Qed.

(** Hearing from a node with our own id can abort nevertheless: a file with one
    bucket of depth 160 is accepted, and after eight nodes the ninth with our id
    ends the task. *)
Definition deep_table : table := mk_table (sid 1 2) [b_new 160].
Definition C72_usable_general : Prop := forall s t h, load_table s = Val t -> inner_ok t -> Forall wf_touch h -> run t h <> Panic.
Theorem C72_deep_refuted : load_table (enc_table deep_table) = Val deep_table /\ inner_ok deep_table /\
  run deep_table (map (fun k => ev 0 7 k) [1; 2; 3; 4; 5; 6; 7; 8]%N ++ [ev 0 1 2]) = Panic /\ ~ C72_usable_general.
Proof.
  assert (A : load_table (enc_table deep_table) = Val deep_table) by (vm_compute; reflexivity).
  assert (B : inner_ok deep_table) by (split; [discriminate|constructor]).
  assert (C : run deep_table (map (fun k => ev 0 7 k) [1; 2; 3; 4; 5; 6; 7; 8]%N ++ [ev 0 1 2]) = Panic) by (vm_compute; reflexivity).
  repeat split; auto; try apply B. intro F. apply (F _ _ _ A B) in C; [exact C|]. cbn [map app]. repeat constructor.
Qed.
(** ** non-vacuity *)
(** Files that abort: an id of no bytes; an id of three bytes in the second
    entry of the second of two buckets. *)
Example C72_aborts_example : load_table (enc_u64 0 ++ [x07]) = Panic /\
  load_table (enc_id (sid 1 2) ++ enc_u64 2 ++ enc_bucket (b_new 1) ++ enc_u64 5 ++ [x00; x01] ++ enc_u64 3 ++ [x41; x41; x41]) = Panic /\
  (* cut off within the three bytes: discarded *)
  load_table (enc_id (sid 1 2) ++ enc_u64 2 ++ enc_bucket (b_new 1) ++ enc_u64 5 ++ [x00; x01] ++ enc_u64 3 ++ [x41; x41]) = Fail.
Proof. repeat split; vm_compute; reflexivity. Qed.
Example C72_usable_example : exists t, load_table (enc_table (mk_table (sid 1 2) [b_new 1; b_new 9]) ++ [x41]) = Val t /\ inner_ok t /\ ~ last_ok t /\
  exists u, load_table (enc_table (mk_table (sid 1 2) [b_new 0; b_new 9])) = Val u /\ ~ inner_ok u.
Proof.
  exists (mk_table (sid 1 2) [b_new 1; b_new 9]). split; [vm_compute; reflexivity|]. split; [split; [discriminate|cbn; constructor; [cbn; lia|constructor]]|]. split.
  - intros (_ & H). specialize (H [b_new 1] (b_new 9) eq_refl). cbn in H. lia.
  - exists (mk_table (sid 1 2) [b_new 0; b_new 9]). split; [vm_compute; reflexivity|]. intros (_ & H). cbn in H. inversion H as [|? ? X]; subst. cbn in X. lia.
Qed.

Print Assumptions C72_accepts_exact.
Print Assumptions C72_aborts_exact.
Print Assumptions C72_lookup_exact.
Print Assumptions C72_refresh_exact.
Print Assumptions C72_usable_partial.
Print Assumptions C72_usable_exact.
Print Assumptions C72_deep_refuted.
