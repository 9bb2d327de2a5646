(** C114-C116: the piece check, the kinds of places in a bucket, and the ports
    opened on the router. *)
From Coq Require Import List NArith ZArith Lia Bool Arith.
From Coq Require Import Init.Byte.
From Verif Require Import Base IdModel WireModel TableModel TableProofs MetainfoModel PendingModel PendingProofs SpareModel.
Import ListNotations.
Set Implicit Arguments.

(** ** C114: the piece check *)
(** The length of piece [idx] of a torrent with [n] bytes: full but for the last. *)
Definition length_of_piece (n pl : N) (idx : nat) : N := N.min pl (n - N.of_nat idx * pl).
(** What a piece check should say. *)
Definition is_piece (sha1 : bytes -> ID) (n : N) (i : metainfo) (idx : nat) (data : list bytes) : Prop :=
  N.of_nat (length (concat data)) = length_of_piece n (i_piece_length i) idx /\ nth_error (i_pieces i) idx = Some (sha1 (concat data)).

Lemma full_length : forall k (data : list bytes), forallb (fun b : list byte => length b =? k) data = true -> length (concat data) = length data * k.
Proof.
  induction data as [|b t IH]; cbn; auto. intro H. apply andb_true_iff in H as [H1 H2]. apply Nat.eqb_eq in H1. rewrite app_length, IH by auto. rewrite H1. reflexivity.
Qed.
Lemma BS_big : 1 < BLOCK_SIZE.
Proof. assert (X : (1 < N.of_nat BLOCK_SIZE)%N) by (vm_compute; reflexivity). lia. Qed.
Lemma BSN : (0 < N.of_nat BLOCK_SIZE)%N.
Proof. pose proof BS_pos. lia. Qed.
(** Whatever is accepted consists of full blocks, as many as a full piece has,
    and has the checksum. *)
Theorem C114_sound_partial : forall sha1 c i idx data, (0 < i_piece_length i)%N -> is_valid_piece sha1 c i idx data = Val true ->
  nth_error (i_pieces i) idx = Some (sha1 (concat data)) /\ Forall (fun b => length b = BLOCK_SIZE) data /\
  (i_piece_length i <= N.of_nat (length (concat data)) < i_piece_length i + N.of_nat BLOCK_SIZE)%N.
Proof.
  intros sha1 c i idx data P H. unfold is_valid_piece, usize_dec in H. replace (i_piece_length i =? 0)%N with false in H by (symmetry; apply N.eqb_neq; lia).
  cbn [rbind] in H. destruct (N.eqb_spec (N.of_nat (length data)) (1 + (i_piece_length i - 1) / N.of_nat BLOCK_SIZE)) as [L|L]; [|discriminate].
  cbn [negb] in H. destruct (forallb (fun b : list byte => length b =? BLOCK_SIZE) data) eqn:F; cbn [negb] in H; [|discriminate H]. destruct (nth_error (i_pieces i) idx) as [h|]; [|discriminate].
  injection H as H. apply id_eqb_eq in H. subst h. split; auto. split.
  - apply Forall_forall. intros b IN. rewrite forallb_forall in F. apply Nat.eqb_eq. apply F. auto.
  - rewrite (full_length _ _ F). pose proof BSN as B. rewrite Nat2N.inj_mul, L.
    pose proof (N.div_mod (i_piece_length i - 1) (N.of_nat BLOCK_SIZE) ltac:(lia)) as D. pose proof (N.mod_lt (i_piece_length i - 1) (N.of_nat BLOCK_SIZE) ltac:(lia)) as M. nia.
Qed.
(** For torrents whose piece length is a multiple of the block size, full pieces
    in full blocks are judged by their checksum. *)
Theorem C114_full_partial : forall sha1 c i idx h data, (0 < i_piece_length i)%N -> (i_piece_length i mod N.of_nat BLOCK_SIZE = 0)%N ->
  nth_error (i_pieces i) idx = Some h ->
  exists b, is_valid_piece sha1 c i idx data = Val b /\
    (b = true <-> Forall (fun b => length b = BLOCK_SIZE) data /\ N.of_nat (length (concat data)) = i_piece_length i /\ sha1 (concat data) = h).
Proof.
  intros sha1 c i idx h data P M G. assert (E : exists b, is_valid_piece sha1 c i idx data = Val b).
  { unfold is_valid_piece, usize_dec. replace (i_piece_length i =? 0)%N with false by (symmetry; apply N.eqb_neq; lia). cbn [rbind]. rewrite G.
    destruct (negb _); eauto. destruct (negb _); eauto. }
  destruct E as (b & E). exists b. split; auto. pose proof BSN as B. pose proof (N.div_mod (i_piece_length i) (N.of_nat BLOCK_SIZE) ltac:(lia)) as D. rewrite M, N.add_0_r in D. set (q := (i_piece_length i / N.of_nat BLOCK_SIZE)%N) in *. split.
  - intros ->. destruct (C114_sound_partial _ _ _ _ _ P E) as (S1 & S2 & S3). split; auto. split; [|congruence].
    assert (F : forallb (fun b : list byte => length b =? BLOCK_SIZE) data = true).
    { apply forallb_forall. intros x IN. apply Nat.eqb_eq. rewrite Forall_forall in S2. auto. }
    rewrite (full_length _ _ F), Nat2N.inj_mul in *. assert (LQ : N.of_nat (length data) = q) by nia. rewrite LQ. lia.
  - intros (F & L & H). unfold is_valid_piece, usize_dec in E. replace (i_piece_length i =? 0)%N with false in E by (symmetry; apply N.eqb_neq; lia).
    assert (F' : forallb (fun b : list byte => length b =? BLOCK_SIZE) data = true).
    { apply forallb_forall. intros x IN. apply Nat.eqb_eq. rewrite Forall_forall in F. auto. }
    rewrite (full_length _ _ F'), Nat2N.inj_mul in L. cbn [rbind] in E. rewrite F', G in E.
    replace (N.of_nat (length data) =? 1 + (i_piece_length i - 1) / N.of_nat BLOCK_SIZE)%N with true in E.
    + cbn [negb] in E. injection E as <-. apply id_eqb_eq. unfold blocks_hash. auto.
    + symmetry. apply N.eqb_eq. assert (LQ : N.of_nat (length data) = q) by nia. assert (Q1 : (1 <= N.of_nat (length data))%N) by nia.
      replace (i_piece_length i - 1)%N with ((N.of_nat (length data) - 1) * N.of_nat BLOCK_SIZE + (N.of_nat BLOCK_SIZE - 1))%N by nia.
      rewrite N.div_add_l by lia. rewrite (N.div_small (N.of_nat BLOCK_SIZE - 1)) by lia. nia.
Qed.
Example C114_example : exists i h, (i_piece_length i mod N.of_nat BLOCK_SIZE = 0)%N /\ (0 < i_piece_length i)%N /\ nth_error (i_pieces i) 0 = Some h.
Proof. exists (mk_metainfo [x78] (N.of_nat BLOCK_SIZE) [repeat x01 20] (Single 5)), (repeat x01 20). split; [apply N.mod_same; pose proof BSN; lia|]. split; [exact BSN|reflexivity]. Qed.
(** A shorter last piece is never accepted, nor any piece of a torrent whose
    piece length is not a multiple of the block size. *)
Theorem C114_short_always : forall sha1 c n i idx data, (0 < i_piece_length i)%N -> is_piece sha1 n i idx data ->
  (length_of_piece n (i_piece_length i) idx < i_piece_length i \/ i_piece_length i mod N.of_nat BLOCK_SIZE <> 0)%N ->
  is_valid_piece sha1 c i idx data <> Val true.
Proof.
  intros sha1 c n i idx data P [L G] S E. destruct (C114_sound_partial _ _ _ _ _ P E) as (S1 & S2 & S3). destruct S as [S|S]; [lia|].
  assert (F : forallb (fun b : list byte => length b =? BLOCK_SIZE) data = true).
  { apply forallb_forall. intros x IN. apply Nat.eqb_eq. rewrite Forall_forall in S2. auto. }
  rewrite L in S3. unfold length_of_piece in *. assert (X : N.of_nat (length (concat data)) = i_piece_length i) by lia.
  apply S. rewrite <- X, (full_length _ _ F), Nat2N.inj_mul. apply N.mod_mul. pose proof BSN. lia.
Qed.
Theorem C114_refuted : exists n, forall sha1 c, exists i data, is_piece sha1 n i 1 data /\ nth_error (i_pieces i) 1 <> None /\
  is_valid_piece sha1 c i 1 data = Val false.
Proof.
  exists (N.of_nat BLOCK_SIZE + 1)%N. intros sha1 c. exists (mk_metainfo [x78] (N.of_nat BLOCK_SIZE) [repeat x01 20; sha1 [x05]] (Single (N.of_nat BLOCK_SIZE + 1))), [[x05]].
  split; [|split; [cbn; discriminate|]].
  - split; [|reflexivity]. unfold length_of_piece. cbn [i_piece_length concat app length]. pose proof BSN. lia.
  - unfold is_valid_piece, usize_dec. cbn [i_piece_length]. pose proof BSN. replace (N.of_nat BLOCK_SIZE =? 0)%N with false by (symmetry; apply N.eqb_neq; lia).
    cbn [rbind length forallb]. destruct (negb (_ =? _)%N); [reflexivity|]. replace (1 =? BLOCK_SIZE) with false by (symmetry; apply Nat.eqb_neq; pose proof BS_big; lia). reflexivity.
Qed.
(** An index outside the torrent is not refused but aborts, if the blocks look right. *)
Theorem C114_index_always : forall sha1 c i idx (data : list bytes), (0 < i_piece_length i)%N -> length (i_pieces i) <= idx ->
  Forall (fun b => length b = BLOCK_SIZE) data -> (N.of_nat (length data) = 1 + (i_piece_length i - 1) / N.of_nat BLOCK_SIZE)%N ->
  is_valid_piece sha1 c i idx data = Panic.
Proof.
  intros sha1 c i idx data P O F L. unfold is_valid_piece, usize_dec. replace (i_piece_length i =? 0)%N with false by (symmetry; apply N.eqb_neq; lia).
  cbn [rbind]. rewrite L, N.eqb_refl. cbn [negb]. replace (forallb (fun b : list byte => length b =? BLOCK_SIZE) data) with true.
  - cbn [negb]. apply nth_error_None in O. rewrite O. reflexivity.
  - symmetry. apply forallb_forall. intros x IN. apply Nat.eqb_eq. rewrite Forall_forall in F. auto.
Qed.

(** ** C115: the places of a bucket *)
Definition goods (now : N) (b : bucket) : nat := length (filter (good_slot now) (b_data b)).
(** Neither: never heard of, or heard of exactly fifteen minutes ago. *)
Definition neither (now : N) (s : option node) : bool :=
  match s with Some n => match n_seen n with None => true | Some t => (now - t =? NODE_VALIDITY)%N end | None => false end.
Lemma fold_count : forall A (f : A -> bool) l k, fold_left (fun acc x => if f x then acc + 1 else acc) l k = k + length (filter f l).
Proof. induction l as [|x l IH]; intro k; cbn; [lia|]. rewrite IH. destruct (f x); cbn; lia. Qed.
Lemma slot_cases : forall now (s : option node),
  (match s with None => 1 | _ => 0 end) + (if good_slot now s then 1 else 0) + (if bad_slot now s then 1 else 0) + (if neither now s then 1 else 0) = 1.
Proof.
  intros now [n|]; auto. cbn [good_slot bad_slot neither]. unfold good. destruct (n_seen n) as [t|]; auto.
  destruct (N.ltb_spec (now - t) NODE_VALIDITY), (N.ltb_spec NODE_VALIDITY (now - t)), (N.eqb_spec (now - t) NODE_VALIDITY); try lia.
Qed.
Theorem C115_kinds_partial : forall now b, count_empty b + goods now b + count_bads now b + length (filter (neither now) (b_data b)) = length (b_data b).
Proof.
  intros now b. unfold count_empty, count_bads, goods. rewrite fold_count.
  assert (E : fold_left (fun acc (x : option node) => match x with None => acc + 1 | Some _ => acc end) (b_data b) 0 =
              length (filter (fun x => match x with None => true | Some _ => false end) (b_data b))).
  { transitivity (0 + length (filter (fun x : option node => match x with None => true | Some _ => false end) (b_data b))); [|reflexivity].
    rewrite <- fold_count. set (z := 0) at 2 4. clearbody z. revert z. induction (b_data b) as [|x l IH]; intro z; cbn; auto. destruct x; apply IH. }
  rewrite E. clear E. induction (b_data b) as [|x l IH]; auto. cbn [filter length]. pose proof (slot_cases now x) as C.
  destruct (good_slot now x), (bad_slot now x), (neither now x), x; cbn [length] in *; lia.
Qed.
Theorem C115_kinds_refuted : exists now b, length (b_data b) = K_NODE_PER_BUCKET /\
  count_empty b + goods now b + count_bads now b < K_NODE_PER_BUCKET.
Proof.
  exists 0%N, (mk_bucket 0 (Some (mk_node (repeat x01 20) (mk_addr x01 x02 x03 x04 5) None) :: repeat None 7)). split; [reflexivity|]. vm_compute. lia.
Qed.
Example C115_example : let b := mk_bucket 0 (Some (mk_node (repeat x01 20) (mk_addr x01 x02 x03 x04 5) (Some 0%N)) :: repeat None 7) in
  count_bads 900000000001 b = 1 /\ goods 899999999999 b = 1 /\ filter (neither 900000000000) (b_data b) <> [].
Proof. split; [reflexivity|]. split; [reflexivity|]. discriminate. Qed.

(** ** C116: ports on the router *)
(** Whatever happens later, both ports of a start stay open for good. *)
Theorem C116_left_open_always : forall g now open tcp udp open' later, open_any_port g now open = (Some (tcp, udp), open') ->
  In (mk_mapping TCP tcp 46492 None) (open_at later open') /\ In (mk_mapping UDP udp 46493 None) (open_at later open').
Proof.
  intros [v4 f t u] now open tcp udp open' later H. unfold open_any_port in H. cbn [g_local_v4 g_found g_tcp g_udp] in H.
  destruct v4 as [[|]|]; try discriminate. destruct f; try discriminate. unfold add_any_port in H. destruct t as [t|]; try discriminate. destruct u as [u|]; try discriminate.
  injection H as <- <- <-. unfold open_at. split; apply filter_In; cbn; auto.
Qed.
(** Also if the second is refused and the client does not start. *)
Theorem C116_half_open_always : forall g now open tcp later, g_local_v4 g = Some true -> g_found g = true -> g_tcp g = Some tcp -> g_udp g = None ->
  fst (open_any_port g now open) = None /\ In (mk_mapping TCP tcp 46492 None) (open_at later (snd (open_any_port g now open))).
Proof.
  intros [v4 f t u] now open tcp later. cbn. intros -> -> -> ->. split; [reflexivity|]. unfold open_at. apply filter_In; cbn; auto.
Qed.
Theorem C116_refuted : exists g now open tcp udp open', open_any_port g now open = (Some (tcp, udp), open') /\ open = [] /\
  forall later, open_at later open' <> [].
Proof.
  exists (mk_sur (Some true) true (Some 7%N) (Some 8%N)), 0%N, [], 7%N, 8%N. eexists. split; [reflexivity|]. split; auto. intros later. discriminate.
Qed.
(** What does hold: other mappings are not touched, and nothing is opened beside
    the two, whose insides are the ports above. *)
Theorem C116_only_partial : forall g now open m, In m (snd (open_any_port g now open)) ->
  In m open \/ (mp_proto m = TCP /\ mp_inside m = 46492%N /\ g_tcp g = Some (mp_outside m)) \/ (mp_proto m = UDP /\ mp_inside m = 46493%N /\ g_udp g = Some (mp_outside m)).
Proof.
  intros [v4 f t u] now open m. unfold open_any_port. cbn [g_local_v4 g_found g_tcp g_udp]. destruct v4 as [[|]|]; auto. destruct f; auto.
  unfold add_any_port. destruct t as [t|]; auto. destruct u as [u|]; cbn.
  - intros [<-|[<-|H]]; auto.
  - intros [<-|H]; auto.
Qed.

Print Assumptions C114_sound_partial.
Print Assumptions C114_full_partial.
Print Assumptions C114_short_always.
Print Assumptions C114_refuted.
Print Assumptions C114_index_always.
Print Assumptions C115_kinds_partial.
Print Assumptions C115_kinds_refuted.
Print Assumptions C116_left_open_always.
Print Assumptions C116_half_open_always.
Print Assumptions C116_refuted.
Print Assumptions C116_only_partial.
