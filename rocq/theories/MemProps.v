(** C120: memory that is read as something else. *)
From Coq Require Import List NArith ZArith Lia Bool Arith.
From Coq Require Import Init.Byte.
From Verif Require Import Base BitSpec BitmapProofs IdModel IdProofs WireModel KrpcModel MetainfoModel MetainfoProps MemModel.
Import ListNotations.
Set Implicit Arguments.

(** ** reading and dropping *)
Lemma initialised_some : forall l, initialised (map Some l) = Done l.
Proof. induction l as [|b l IH]; cbn; auto. rewrite IH. auto. Qed.
Lemma firstn_map_some : forall (l : bytes) n, firstn n (map Some l) = map Some (firstn n l).
Proof. intros. apply firstn_map. Qed.
Lemma skipn_map_some : forall (l : bytes) n, skipn n (map (@Some byte) l) = map Some (skipn n l).
Proof. intros. apply skipn_map. Qed.
Lemma nth_last : forall A (h : list A) x, nth_error (h ++ [x]) (length h) = Some x.
Proof. intros. rewrite nth_error_app2, Nat.sub_diag by lia. auto. Qed.
Lemma upd_last : forall A (h : list A) x y, upd (h ++ [x]) (length h) y = h ++ [y].
Proof. intros. rewrite upd_app_r, Nat.sub_diag by lia. auto. Qed.
Lemma read_in : forall h raw room off n, off + n <= length raw ->
  mem_read (fst (alloc h (length raw + room) 1 raw)) (length h) off n = Done (firstn n (skipn off raw)).
Proof.
  intros h raw room off n L. unfold mem_read, alloc. cbn [fst]. rewrite nth_last. cbn [k_cells]. rewrite app_length, map_length, repeat_length.
  destruct (Nat.leb_spec (off + n) (length raw + (length raw + room - length raw))); [|lia].
  rewrite skipn_app, map_length, firstn_app, skipn_length, map_length. replace (n - (length raw - off)) with 0 by lia. rewrite firstn_O, app_nil_r.
  rewrite skipn_map_some, firstn_map_some. apply initialised_some.
Qed.
Lemma concat_nth : forall l i x, Forall wf_id l -> nth_error l i = Some x -> firstn 20 (skipn (20 * i) (concat l)) = x /\ 20 * i + 20 <= length (concat l).
Proof.
  intros l i x F. revert i. induction F as [|y l W F IH]; intros i H; [destruct i; discriminate|]. unfold wf_id, ID_LEN in W. cbn [concat]. destruct i as [|i].
  - injection H as ->. rewrite Nat.mul_0_r. cbn [skipn]. rewrite firstn_app, W, Nat.sub_diag, firstn_O, app_nil_r, app_length. split; [|lia]. rewrite <- W. apply firstn_all.
  - cbn in H. destruct (IH i H) as [A B]. replace (20 * S i) with (length y + 20 * i) by lia. rewrite skipn_app, skipn_all2 by lia. cbn [app].
    replace (length y + 20 * i - length y) with (20 * i) by lia. rewrite app_length. split; auto. lia.
Qed.
Lemma read_all_ids : forall h ids room cap, Forall wf_id ids ->
  read_all (fst (alloc h (length (concat ids) + room) 1 (concat ids))) (mk_vec (length h) (length ids) cap) (seq 0 (length ids)) = Done ids.
Proof.
  intros h ids room cap F. set (H := fst (alloc h (length (concat ids) + room) 1 (concat ids))).
  assert (G : forall l k, (forall i x, nth_error l i = Some x -> nth_error ids (k + i) = Some x) -> read_all H (mk_vec (length h) (length ids) cap) (seq k (length l)) = Done l).
  { induction l as [|x l IH]; intros k N; auto. cbn [seq length read_all]. unfold vec_index. cbn [v_ptr].
    pose proof (N 0 x eq_refl) as E. rewrite Nat.add_0_r in E. destruct (concat_nth _ F E) as [A B]. change ID_LEN with 20. unfold H. rewrite read_in by auto. rewrite A.
    fold H. cbn [mbind]. rewrite IH; auto. intros i y Y. rewrite <- (N (S i) y Y). f_equal. lia. }
  apply (G ids 0). auto.
Qed.

(** ** The bytes of the `pieces` field *)
(** What the identifiers are: the list that is the field when written one after
    the other. It is read right whatever room the vector has. *)
Theorem C120_read : forall h ids room, Forall wf_id ids -> ids <> [] ->
  exists h1 v w, vec_of h (concat ids) room = (h1, v) /\ pieces_from_raw h1 v = Done (h1, Val w) /\ v_len w = length ids /\ read_all h1 w (seq 0 (v_len w)) = Done ids.
Proof.
  intros h ids room F NE. pose proof (concat_len F) as L. assert (0 < length ids) by (destruct ids; [congruence|cbn; lia]).
  unfold vec_of. destruct (length (concat ids) + room) as [|c] eqn:C; [lia|]. rewrite <- C. unfold alloc. do 3 eexists. split; [reflexivity|].
  unfold pieces_from_raw. cbn [v_len v_ptr v_cap]. rewrite L. change ID_LEN with 20. destruct (Nat.eqb_spec (20 * length ids) 0); [lia|].
  replace (20 * length ids) with (length ids * 20) by lia. rewrite Nat.mod_mul, Nat.div_mul by lia. cbn [orb negb Nat.eqb]. split; [reflexivity|]. cbn [v_len]. split; auto.
  pose proof (read_all_ids h room ((length (concat ids) + room) / 20) F) as R. unfold alloc in R. cbn [fst] in R. rewrite L in R. replace (20 * length ids) with (length ids * 20) in R by lia. exact R.
Qed.
(** Exactly when the whole life of a field is defined, and what it gives: a field
    that is no list of identifiers is refused and given back; otherwise the room of
    the vector must be a multiple of 20 bytes. Nothing else on the heap is
    touched. *)
Theorem C120_exact : forall h raw room,
  (forall ids, Forall wf_id ids -> ids <> [] -> raw = concat ids ->
     pieces_life h raw room = if room mod 20 =? 0 then Done (h ++ [None], Val ids) else Undefined) /\
  ((forall ids, Forall wf_id ids -> ids <> [] -> raw <> concat ids) -> exists h', pieces_life h raw room = Done (h ++ h', Fail) /\ Forall (eq None) h').
Proof.
  intros h raw room. split.
  - intros ids F NE ->. destruct (C120_read h room F NE) as (h1 & v & w & E1 & E2 & L & R). unfold pieces_life. rewrite E1, E2. cbn [mbind fst snd]. rewrite R. cbn [mbind].
    pose proof (concat_len F) as LC. assert (0 < length ids) by (destruct ids; [congruence|cbn; lia]).
    unfold vec_of in E1. destruct (length (concat ids) + room) as [|c] eqn:C; [lia|]. rewrite <- C in E1. unfold alloc in E1. injection E1 as <- <-.
    unfold pieces_from_raw in E2. cbn [v_len v_cap v_ptr] in E2. destruct (_ || _); [cbn in E2; destruct (vec_drop _ _ _); discriminate|]. injection E2 as <-. change ID_LEN with 20 in *. cbn [v_len v_cap v_ptr] in *.
    unfold vec_drop. cbn [v_cap v_ptr]. assert (D : (length (concat ids) + room) / 20 = length ids + room / 20).
    { rewrite LC. replace (20 * length ids + room) with (room + length ids * 20) by lia. rewrite Nat.div_add by lia. lia. }
    rewrite D. destruct (Nat.eqb_spec (20 * (length ids + room / 20)) 0); [lia|]. unfold dealloc. rewrite nth_last. cbn [k_size k_align]. rewrite LC.
    pose proof (Nat.div_mod room 20 ltac:(lia)) as DM. destruct (Nat.eqb_spec (room mod 20) 0) as [Z|Z].
    + replace (20 * length ids + room =? 20 * (length ids + room / 20)) with true by (symmetry; apply Nat.eqb_eq; lia). cbn [andb Nat.eqb mbind]. rewrite upd_last. auto.
    + replace (20 * length ids + room =? 20 * (length ids + room / 20)) with false by (symmetry; apply Nat.eqb_neq; lia). auto.
  - intro N. unfold pieces_life, vec_of. destruct (length raw + room) as [|c] eqn:C.
    + exists []. rewrite app_nil_r. assert (length raw = 0) by lia. split; auto.
    + rewrite <- C. unfold alloc. assert (B : (length raw =? 0) || negb (length raw mod ID_LEN =? 0) = true).
      { change ID_LEN with 20. destruct (Nat.eqb_spec (length raw) 0); auto. cbn [orb]. destruct (Nat.eqb_spec (length raw mod 20) 0) as [Z|Z]; auto. exfalso.
        destruct (concat_chunks _ Z) as (ids & E & F). apply (N ids); auto. intros ->. cbn in E. subst. cbn in *. lia. }
      unfold pieces_from_raw. cbn [v_len]. rewrite B. unfold vec_drop. cbn [v_cap v_ptr]. rewrite Nat.mul_1_l, C. change (S c =? 0) with false. cbv iota. unfold dealloc. rewrite nth_last. cbn [k_size k_align].
      rewrite Nat.eqb_refl. cbn [andb Nat.eqb mbind fst snd]. rewrite upd_last. exists [None]. split; auto.
Qed.
(** Part: as the program calls it. It is what MetainfoModel.v says. *)
Theorem C120_life_partial : forall h raw, exists h', pieces_life h raw 0 = Done (h ++ h', deserialize_pieces_field raw) /\ Forall (eq None) h'.
Proof.
  intros h raw. unfold deserialize_pieces_field. change ID_LEN with 20. destruct (Nat.eqb_spec (length raw) 0) as [Z|Z].
  - cbn [orb]. apply (proj2 (C120_exact h raw 0)). intros ids F NE ->. rewrite (concat_len F) in Z. destruct ids; [congruence|cbn in Z; lia].
  - cbn [orb]. destruct (Nat.eqb_spec (length raw mod 20) 0) as [M|M]; cbn [negb].
    + destruct (concat_chunks _ M) as (ids & -> & F). exists [None]. split; [|auto]. assert (NE : ids <> []) by (intros ->; cbn in Z; lia).
      rewrite (proj1 (C120_exact h (concat ids) 0) ids F NE eq_refl). change (0 mod 20 =? 0) with true. cbv iota. rewrite chunks_concat; auto.
    + apply (proj2 (C120_exact h raw 0)). intros ids F NE ->. rewrite (concat_len F) in M. rewrite Nat.mul_comm, Nat.mod_mul in M; lia.
Qed.
(** The full statement, for any vector of bytes, is false: with room for one more
    byte the memory is given back with a size it was not allocated with. *)
Theorem C120_room_refuted : exists ids, Forall wf_id ids /\ ids <> [] /\ forall h, pieces_life h (concat ids) 1 = Undefined.
Proof.
  exists [repeat x01 20]. split; [constructor; [reflexivity|constructor]|]. split; [discriminate|]. intro h.
  rewrite (proj1 (C120_exact h _ 1) [repeat x01 20]); auto; [constructor; [reflexivity|constructor]|discriminate].
Qed.
Example C120_example : pieces_life [] (repeat x01 20 ++ repeat x02 20) 0 = Done ([None], Val [repeat x01 20; repeat x02 20]).
Proof. vm_compute. reflexivity. Qed.

(** ** The handshake *)
Lemma round_up_1 : forall n, round_up n 1 = n.
Proof. intro n. unfold round_up. rewrite Nat.div_1_r. lia. Qed.
Lemma place_bytes : forall fs l, Forall (fun f => f_align f = 1) fs -> place (map Some l) fs = map Some (l ++ flat_map f_bytes fs).
Proof.
  induction fs as [|f fs IH]; intros l F; cbn [place flat_map]; [rewrite app_nil_r; auto|]. inversion F; subst. rewrite H1, round_up_1, Nat.sub_diag. cbn [repeat app].
  rewrite <- map_app, IH by auto. rewrite app_assoc. auto.
Qed.
(** A struct of byte arrays has no gaps; the handshake is sent as WireModel.v says,
    68 bytes. *)
Theorem C120_handshake : forall ih pid, wf_id ih -> wf_id pid ->
  as_bytes (handshake_fields ih pid) = Done (handshake_bytes ih pid) /\ length (struct_cells (handshake_fields ih pid)) = 68.
Proof.
  intros ih pid A B. assert (E : struct_cells (handshake_fields ih pid) = map Some (handshake_bytes ih pid)).
  { unfold struct_cells. change (@nil (option byte)) with (map (@Some byte) []). rewrite place_bytes; [|repeat constructor]. change (struct_align _) with 1. rewrite round_up_1, Nat.sub_diag. cbn [repeat].
    rewrite app_nil_r. f_equal. unfold handshake_bytes, handshake_fields. cbn [flat_map f_bytes app]. rewrite app_nil_r. auto. }
  unfold as_bytes. rewrite E, map_length. split; [apply initialised_some|]. unfold handshake_bytes. rewrite !app_length. unfold wf_id in *. rewrite A, B. reflexivity.
Qed.
(** With the reserved bytes as one aligned number there would be a gap. *)
Example C120_gap : as_bytes [mk_fld 1 [n2b PSTRLEN]; mk_fld 1 PSTR; mk_fld 8 (repeat x00 8)] = Undefined.
Proof. reflexivity. Qed.

(** ** The words of an identifier *)
(** The weight does not depend on the byte order of the machine. *)
Theorem C120_words : forall big id, wf_id id -> id_weight_on big id = Val (N.of_nat (count_true (id_bits id))).
Proof.
  intros [|] id H; [|apply id_weight_spec; auto]. unfold wf_id, ID_LEN in H.
  do 20 (destruct id as [|? id]; [discriminate|]). destruct id; [|discriminate]. clear H. unfold id_weight_on.
  assert (G : forall a b c d, native_word true [a; b; c; d] = lanes (b2n d) (b2n c) (b2n b) (b2n a)).
  { intros. unfold native_word, of_le, of_be, lanes. cbn [rev app fold_left]. lia. }
  cbn [firstn skipn Nat.mul Nat.add]. rewrite !G, !hamming_weight_spec. cbn [rbind].
  unfold id_bits, bits_of. cbn [flat_map]. rewrite !count_true_app. change (count_true []) with 0.
  repeat match goal with |- context[count_true (byte_bits ?b)] =>
    let Q := fresh "Q" in pose proof (count_true_le (byte_bits b)) as Q; rewrite byte_bits_length in Q;
    generalize dependent (count_true (byte_bits b)); intros end.
  unfold u32_add. change (2 ^ 32)%N with 4294967296%N.
  repeat (match goal with |- context[(?a <? 4294967296)%N] =>
    replace (a <? 4294967296)%N with true by (symmetry; apply N.ltb_lt; lia); cbn [rbind] end).
  f_equal. lia.
Qed.
Example C120_words_example : id_weight_on true (xff :: x01 :: repeat x10 18) = Val 27%N.
Proof. vm_compute. reflexivity. Qed.

Print Assumptions C120_read.
Print Assumptions C120_exact.
Print Assumptions C120_life_partial.
Print Assumptions C120_room_refuted.
Print Assumptions C120_handshake.
Print Assumptions C120_words.
