(** C56: torrent files. *)
From Coq Require Import Strings.String.
From Coq Require Import List NArith ZArith Lia Bool Arith Sorted Permutation.
From Coq Require Import Init.Byte.
From Verif Require Import Base IdModel BencodeModel BencodeSpec BencodeProofs BencodeProps KrpcModel Utf8Spec Utf8Proofs KrpcProofs TrackerModel TrackerSpec DictProofs ResponseProps MetainfoModel MetainfoSpec.
Import ListNotations.
Set Implicit Arguments.

(** ** lists of things *)
Lemma rbind_iff : forall A B (x : res A) (f : A -> res B) y, rbind x f = Val y <-> exists a, x = Val a /\ f a = Val y.
Proof.
  intros A B [a| |] f y; cbn; split; try discriminate.
  - intro H. exists a. auto.
  - intros (b & E & F). congruence.
  - intros (b & E & _). discriminate.
  - intros (b & E & _). discriminate.
Qed.
Lemma rmap_iff : forall A B (x : res A) (f : A -> B) y, rmap f x = Val y <-> exists a, x = Val a /\ f a = y.
Proof.
  intros A B [a| |] f y; cbn; split; try discriminate.
  - intro H. injection H as <-. exists a. auto.
  - intros (b & E & F). congruence.
  - intros (b & E & _). discriminate.
  - intros (b & E & _). discriminate.
Qed.
Lemma map_res_iff : forall A B (p : A -> res B) l r, map_res p l = Val r <-> Forall2 (fun x y => p x = Val y) l r.
Proof.
  intros A B p l. induction l as [|x l IH]; intro r; cbn [map_res].
  - split; [intro H; injection H as <-; constructor|intro H; inversion H; auto].
  - rewrite rbind_iff. split.
    + intros (y & P & H). apply rmap_iff in H. destruct H as (r' & M & <-). constructor; [auto|apply IH; auto].
    + intro H. inversion H as [|? y ? r' P F]; subst. exists y. split; auto. apply IH in F. rewrite F. reflexivity.
Qed.
Lemma strings_iff : forall l r, Forall2 (fun x y => p_string x = Val y) l r <-> l = map BStr r /\ Forall utf8 r.
Proof.
  induction l as [|x l IH]; intro r; split.
  - intro H. inversion H. auto.
  - intros (E & _). destruct r; [constructor|discriminate].
  - intro H. inversion H as [|? y ? r' P F]; subst. apply p_string_iff in P. destruct P as (-> & U). apply IH in F. destruct F as (-> & F). split; [reflexivity|constructor; auto].
  - intros (E & F). destruct r as [|y r]; [discriminate|]. injection E as -> E. inversion F; subst. constructor; [apply p_string_iff; auto|apply IH; auto].
Qed.
Lemma p_strings_iff : forall v l, p_list p_string v = Val l <-> texts v l.
Proof.
  intros v l. unfold texts. destruct v as [z|s|x|x]; cbn [p_list]; try (split; [discriminate|intros (E & _); discriminate]).
  rewrite map_res_iff, strings_iff. split; intros (E & F); split; auto; congruence.
Qed.
Lemma text_fval : forall d k s, NoDup (map fst d) -> (fval p_string (str k) d None (Some s) <-> text d k s).
Proof.
  intros d k s ND. rewrite fval_some by auto. unfold text. split.
  - intros (v & I & P). apply p_string_iff in P. destruct P as (-> & L). auto.
  - intros (I & L). eexists. split; [exact I|]. apply p_string_iff. auto.
Qed.
Lemma number_fval : forall d k n, NoDup (map fst d) -> (fval (p_uint u64_max) (str k) d None (Some n) <-> number d k n).
Proof.
  intros d k n ND. rewrite fval_some by auto. unfold number. split.
  - intros (v & I & P). apply p_uint_iff in P. destruct P as (-> & L). auto.
  - intros (I & L). eexists. split; [exact I|]. apply p_uint_iff. auto.
Qed.

(** ** files *)
Lemma file_entries_iff : forall d p l p' l', NoDup (map fst d) -> (file_entries p l d = Val (p', l') <->
  fval (p_list p_string) (str "path") d p p' /\ fval (p_uint u64_max) (str "length") d l l').
Proof.
  induction d as [|[k v] d IH]; intros p l p' l' ND.
  - unfold fval. cbn. split; [intro H; injection H as <- <-; auto|intros (-> & ->); auto].
  - cbn [map fst] in ND. inversion ND as [|? ? NI ND']; subst. cbn [file_entries].
    destruct (bytes_eq_dec k (str "path")) as [->|N1]; [|destruct (bytes_eq_dec k (str "length")) as [->|N2]].
    + rewrite bytes_eqb_refl, rbind_iff, fval_hit, fval_miss by discriminate. split.
      * intros (x & P & H). apply IH in H; auto. destruct H as (H1 & H2). rewrite fval_absent in H1 by auto. eauto.
      * intros ((x & P & Q) & H). exists x. split; auto. apply IH; auto. rewrite fval_absent by auto. auto.
    + change (bytes_eqb (str "length") (str "path")) with false. cbn iota. rewrite bytes_eqb_refl, rbind_iff, fval_hit, fval_miss by discriminate. split.
      * intros (x & P & H). apply IH in H; auto. destruct H as (H1 & H2). rewrite fval_absent in H2 by auto. eauto.
      * intros (H & (x & P & Q)). exists x. split; auto. apply IH; auto. rewrite (@fval_absent _ _ (str "length")) by auto. auto.
    + pose proof N1 as M1. pose proof N2 as M2. apply bytes_eqb_neq in M1, M2. rewrite M1, M2, !fval_miss by auto. apply IH. auto.
Qed.
Lemma decode_file_iff : forall d f, NoDup (map fst d) -> (decode_file (BDict d) = Val f <-> file_says d f).
Proof.
  intros d f ND. cbn [decode_file]. unfold file_says. rewrite <- number_fval by auto.
  assert (E : rbind (file_entries None None d) (fun r => rbind (need (fst r)) (fun p => rbind (need (snd r)) (fun l => Val (mk_mfile p l)))) = Val f <->
    file_entries None None d = Val (Some (mf_path f), Some (mf_length f))).
  { split.
    - intro H. apply rbind_iff in H. destruct H as ([[p|] [l|]] & R & H); try discriminate. rewrite R. cbn in H. injection H as <-. reflexivity.
    - intro H. rewrite H. destruct f. reflexivity. }
  rewrite E, file_entries_iff by auto. rewrite fval_some by auto. split.
  - intros ((v & I & P) & H). split; auto. exists v. apply p_strings_iff in P. auto.
  - intros (H & (v & I & P)). split; auto. exists v. apply p_strings_iff in P. auto.
Qed.
Lemma decode_file_dict : forall v f, decode_file v = Val f -> exists d, v = BDict d.
Proof. intros [z|s|l|d] f H; try discriminate. eauto. Qed.
Lemma ordered_list_inv : forall l, ordered (BList l) -> Forall ordered l.
Proof. intros l H. inversion H. auto. Qed.
Lemma ordered_dict_inv : forall d k v, ordered (BDict d) -> In (k, v) d -> ordered v.
Proof. intros d k v H I. inversion H as [| | |? F S]; subst. rewrite Forall_forall in F. exact (F _ I). Qed.
Lemma files_iff : forall v fs, ordered v -> (p_list decode_file v = Val fs <-> exists l, v = BList (map BDict l) /\ Forall2 file_says l fs).
Proof.
  intros v fs O. destruct v as [z|s|x|x]; cbn [p_list]; try (split; [discriminate|intros (l & E & _); discriminate]).
  rewrite map_res_iff. apply ordered_list_inv in O. split.
  - intro H. assert (G : exists l, x = map BDict l /\ Forall2 file_says l fs).
    { induction H as [|v f x fs D H IH]; [exists []; split; [auto|constructor]|]. inversion O as [|? ? O1 O2]; subst.
      destruct (decode_file_dict _ D) as (d & ->). destruct (IH O2) as (l & -> & F). exists (d :: l). split; [reflexivity|]. constructor; auto.
      apply decode_file_iff in D; [auto|apply ordered_nodup; auto]. }
    destruct G as (l & -> & F). exists l. auto.
  - intros (l & E & F). injection E as ->. induction F as [|d f l fs S F IH]; [constructor|]. cbn [map] in O |- *. inversion O; subst. constructor; auto.
    apply decode_file_iff; [apply ordered_nodup; auto|auto].
Qed.
Lemma files_say_iff : forall d fs, ordered (BDict d) -> (files_say d fs <-> exists v, lookup (str "files") d = Some v /\ p_list decode_file v = Val fs).
Proof.
  intros d fs O. pose proof (ordered_nodup O) as ND. unfold files_say. split.
  - intros (l & I & F). eexists. split; [apply lookup_some; eauto|]. apply files_iff; [eapply ordered_dict_inv; eauto|]. eauto.
  - intros (v & I & P). apply lookup_some in I; auto. apply files_iff in P; [|eapply ordered_dict_inv; eauto]. destruct P as (l & -> & F). eauto.
Qed.

(** ** pieces *)
Lemma concat_len : forall l, Forall wf_id l -> length (concat l) = 20 * length l.
Proof. intros l F. induction F as [|x l W F IH]; [reflexivity|]. cbn [concat length]. rewrite app_length, IH. unfold wf_id, ID_LEN in W. rewrite W. lia. Qed.
Lemma chunks_concat : forall l, Forall wf_id l -> chunks 20 (concat l) = l.
Proof.
  intros l F. assert (H : forall x : bytes, In x l -> length x = 20) by (intros x I; rewrite Forall_forall in F; exact (F x I)).
  pose proof (@chunks_blocks _ _ 20 (fun x : bytes => x) l ltac:(lia) H) as E. rewrite flat_map_concat_map, map_id in E. exact E.
Qed.
Lemma concat_chunks : forall s, length s mod 20 = 0 -> exists l, s = concat l /\ Forall wf_id l.
Proof.
  intros s M. apply Nat.mod_divides in M; [|lia]. destruct M as (k & M). revert s M. induction k as [|k IH]; intros s M.
  - destruct s; [|cbn in M; lia]. exists []. auto.
  - destruct (IH (skipn 20 s)) as (l & E & F); [rewrite skipn_length; lia|].
    exists (firstn 20 s :: l). cbn [concat]. rewrite <- E, firstn_skipn. split; auto. constructor; auto. unfold wf_id. rewrite firstn_length, M. change ID_LEN with 20. lia.
Qed.
Lemma pieces_iff : forall raw l, deserialize_pieces_field raw = Val l <-> l <> [] /\ Forall wf_id l /\ raw = concat l.
Proof.
  intros raw l. unfold deserialize_pieces_field. change ID_LEN with 20. split.
  - destruct (length raw =? 0) eqn:E1; [discriminate|]. destruct (length raw mod 20 =? 0) eqn:E2; [|discriminate]. cbn [orb negb]. intro H. injection H as <-.
    apply Nat.eqb_neq in E1. apply Nat.eqb_eq in E2. destruct (@concat_chunks raw E2) as (l & -> & F). rewrite chunks_concat by auto. split; [|auto].
    intros ->. destruct E1. reflexivity.
  - intros (N & F & ->). rewrite concat_len by auto. assert (length l <> 0) by (destruct l; [congruence|discriminate]).
    rewrite (proj2 (Nat.eqb_neq _ _)) by lia. rewrite Nat.mul_comm, Nat.mod_mul by lia. cbn [Nat.eqb negb orb]. rewrite chunks_concat by auto. reflexivity.
Qed.
Definition p_pieces (v : bval) : res (list ID) := rbind (p_buf v) deserialize_pieces_field.
Lemma p_pieces_iff : forall v l, p_pieces v = Val l <-> l <> [] /\ Forall wf_id l /\ v = BStr (concat l).
Proof.
  intros v l. unfold p_pieces. destruct v as [z|s|x|x]; cbn [p_buf rbind]; try (split; [discriminate|intros (_ & _ & E); discriminate]).
  rewrite pieces_iff. split; intros (N & F & E); repeat split; auto; congruence.
Qed.

(** ** info *)
Definition mode_spec (d : list (bytes * bval)) (old new : option fmode) : Prop :=
  match lookup (str "length") d with
  | Some v => (exists n, p_uint u64_max v = Val n /\ new = Some (Single n)) /\
              match lookup (str "files") d with Some w => exists fs, p_list decode_file w = Val fs | None => True end
  | None => match lookup (str "files") d with Some w => exists fs, p_list decode_file w = Val fs /\ new = Some (Multi fs) | None => new = old end
  end.
Definition info_spec (d : list (bytes * bval)) (w w' : raw_info) : Prop :=
  fval (p_uint u64_max) (str "piece length") d (ri_piece_length w) (ri_piece_length w') /\
  fval p_pieces (str "pieces") d (ri_pieces w) (ri_pieces w') /\
  mode_spec d (ri_mode w) (ri_mode w') /\
  fval p_string (str "name") d (ri_name w) (ri_name w').
Lemma mode_miss : forall k v d o n, k <> str "length" -> k <> str "files" -> (mode_spec ((k, v) :: d) o n <-> mode_spec d o n).
Proof. intros k v d o n N1 N2. unfold mode_spec. cbn [lookup]. apply bytes_eqb_neq in N1, N2. rewrite N1, N2. tauto. Qed.
Lemma info_iff : forall d w w', StronglySorted lex (map fst d) -> (info_entries w d = Val w' <-> info_spec d w w').
Proof.
  induction d as [|[k v] d IH]; intros w w' SS.
  - unfold info_spec, mode_spec, fval. cbn [lookup info_entries]. destruct w, w'; cbn. split; [intro H; injection H as <- <- <- <-; auto|].
    intros (-> & -> & -> & ->). reflexivity.
  - cbn [map fst] in SS. inversion SS as [|? ? SS' FA]; subst. rewrite Forall_forall in FA.
    assert (NI : ~ In k (map fst d)) by (intro I; exact (lex_irrefl (FA k I))).
    cbn [info_entries]. rewrite rbind_iff. destruct w as [a b c e], w' as [a' b' c' e']. unfold info_spec. cbn [ri_piece_length ri_pieces ri_mode ri_name].
    destruct (bytes_eq_dec k (str "name")) as [->|N1]; [|destruct (bytes_eq_dec k (str "pieces")) as [->|N2]; [|destruct (bytes_eq_dec k (str "length")) as [->|N3];
      [|destruct (bytes_eq_dec k (str "piece length")) as [->|N4]; [|destruct (bytes_eq_dec k (str "files")) as [->|N5]]]]].
    + rewrite mode_miss by discriminate. rewrite fval_hit. rewrite !fval_miss by discriminate. split.
      * intros (w & E & H). apply IH in H; auto. unfold info_entry in E. rewrite bytes_eqb_refl in E. apply rmap_iff in E. destruct E as (x & P & <-).
        destruct H as (H1 & H2 & H3 & H4). cbn [ri_piece_length ri_pieces ri_mode ri_name] in *. rewrite fval_absent in H4 by auto. eauto 10.
      * intros (H1 & H2 & H3 & x & P & Q). exists (mk_rawi a b c (Some x)). split; [unfold info_entry; rewrite bytes_eqb_refl, P; reflexivity|].
        apply IH; auto. repeat split; auto. cbn [ri_name]. rewrite fval_absent by auto. auto.
    + rewrite mode_miss by discriminate. rewrite fval_hit. rewrite !fval_miss by discriminate.
      assert (EN : info_entry (mk_rawi a b c e) (str "pieces") v = rmap (fun x => mk_rawi a (Some x) c e) (p_pieces v)).
      { unfold info_entry, p_pieces. change (bytes_eqb (str "pieces") (str "name")) with false. cbn iota. rewrite bytes_eqb_refl. destruct (p_buf v); reflexivity. }
      rewrite EN. split.
      * intros (w & E & H). apply IH in H; auto. apply rmap_iff in E. destruct E as (x & P & <-).
        destruct H as (H1 & H2 & H3 & H4). cbn [ri_piece_length ri_pieces ri_mode ri_name] in *. rewrite fval_absent in H2 by auto. eauto 10.
      * intros (H1 & (x & P & Q) & H3 & H4). exists (mk_rawi a (Some x) c e). split; [rewrite P; reflexivity|].
        apply IH; auto. repeat split; auto. cbn [ri_pieces]. rewrite fval_absent by auto. auto.
    + rewrite !fval_miss by discriminate.
      assert (EN : info_entry (mk_rawi a b c e) (str "length") v = rmap (fun x => mk_rawi a b (Some (Single x)) e) (p_uint u64_max v)) by reflexivity.
      assert (NF : lookup (str "files") d = None).
      { apply lookup_none. intro I. specialize (FA _ I). apply bytes_lt_lex in FA. vm_compute in FA. discriminate. }
      assert (NL : lookup (str "length") d = None) by (apply lookup_none; auto).
      assert (MS : forall o n, mode_spec d o n <-> n = o) by (intros o n; unfold mode_spec; rewrite NF, NL; tauto).
      assert (MH : forall o n, mode_spec ((str "length", v) :: d) o n <-> exists x, p_uint u64_max v = Val x /\ n = Some (Single x)).
      { intros o n. unfold mode_spec. cbn [lookup]. rewrite bytes_eqb_refl. change (bytes_eqb (str "length") (str "files")) with false. cbn iota. rewrite NF. tauto. }
      rewrite EN, MH. split.
      * intros (w & E & H). apply IH in H; auto. apply rmap_iff in E. destruct E as (x & P & <-).
        destruct H as (H1 & H2 & H3 & H4). cbn [ri_piece_length ri_pieces ri_mode ri_name] in *. apply MS in H3. eauto 10.
      * intros (H1 & H2 & (x & P & Q) & H4). exists (mk_rawi a b (Some (Single x)) e). split; [rewrite P; reflexivity|].
        apply IH; auto. repeat split; auto. apply MS. auto.
    + rewrite mode_miss by discriminate. rewrite fval_hit. rewrite !fval_miss by discriminate.
      assert (EN : info_entry (mk_rawi a b c e) (str "piece length") v = rmap (fun x => mk_rawi (Some x) b c e) (p_uint u64_max v)) by reflexivity.
      rewrite EN. split.
      * intros (w & E & H). apply IH in H; auto. apply rmap_iff in E. destruct E as (x & P & <-).
        destruct H as (H1 & H2 & H3 & H4). cbn [ri_piece_length ri_pieces ri_mode ri_name] in *. rewrite fval_absent in H1 by auto. eauto 10.
      * intros ((x & P & Q) & H2 & H3 & H4). exists (mk_rawi (Some x) b c e). split; [rewrite P; reflexivity|].
        apply IH; auto. repeat split; auto. cbn [ri_piece_length]. rewrite fval_absent by auto. auto.
    + rewrite !fval_miss by discriminate.
      assert (EN : info_entry (mk_rawi a b c e) (str "files") v = rmap (fun x => mk_rawi a b (Some (Multi x)) e) (p_list decode_file v)) by reflexivity.
      assert (NF : lookup (str "files") d = None) by (apply lookup_none; auto).
      assert (MH : forall o n, mode_spec ((str "files", v) :: d) o n <-> exists x, p_list decode_file v = Val x /\ mode_spec d (Some (Multi x)) n).
      { intros o n. unfold mode_spec. cbn [lookup]. rewrite bytes_eqb_refl. change (bytes_eqb (str "files") (str "length")) with false. cbn iota. rewrite NF.
        destruct (lookup (str "length") d).
        - split; [intros (X & fs & Y); exists fs; auto|intros (fs & Y & X & _); split; eauto].
        - split; intros (fs & X & Y); exists fs; auto. }
      rewrite EN, MH. split.
      * intros (w & E & H). apply IH in H; auto. apply rmap_iff in E. destruct E as (x & P & <-).
        destruct H as (H1 & H2 & H3 & H4). cbn [ri_piece_length ri_pieces ri_mode ri_name] in *. eauto 10.
      * intros (H1 & H2 & (x & P & Q) & H4). exists (mk_rawi a b (Some (Multi x)) e). split; [rewrite P; reflexivity|].
        apply IH; auto. repeat split; auto.
    + rewrite mode_miss by auto. rewrite !fval_miss by auto.
      assert (EN : info_entry (mk_rawi a b c e) k v = Val (mk_rawi a b c e)).
      { unfold info_entry. apply bytes_eqb_neq in N1, N2, N3, N4, N5. rewrite N1, N2, N3, N4, N5. reflexivity. }
      rewrite EN. split.
      * intros (w & E & H). injection E as <-. apply IH in H; auto.
      * intro H. eexists. split; [reflexivity|]. apply IH; auto.
Qed.
Lemma ordered_strong : forall d, ordered (BDict d) -> StronglySorted lex (map fst d).
Proof. intros d H. inversion H; subst. apply Sorted_StronglySorted; [exact lex_trans|auto]. Qed.
Lemma decode_info_iff : forall d i, ordered (BDict d) -> (decode_info (BDict d) = Val i <-> info_says d i).
Proof.
  intros d i O. pose proof (ordered_nodup O) as ND. cbn [decode_info].
  assert (E : rbind (info_entries (mk_rawi None None None None) d) (fun w => rbind (need (ri_piece_length w)) (fun l => rbind (need (ri_pieces w)) (fun p =>
    rbind (need (ri_name w)) (fun n => rbind (need (ri_mode w)) (fun m => Val (mk_metainfo n l p m)))))) = Val i <->
    info_entries (mk_rawi None None None None) d = Val (mk_rawi (Some (i_piece_length i)) (Some (i_pieces i)) (Some (i_mode i)) (Some (i_name i)))).
  { split.
    - intro H. apply rbind_iff in H. destruct H as ([a b c e] & R & H). rewrite R. cbn [ri_piece_length ri_pieces ri_mode ri_name] in H.
      destruct a as [a|]; [|discriminate]. destruct b as [b|]; [|discriminate]. destruct e as [e|]; [|discriminate]. destruct c as [c|]; [|discriminate].
      cbn in H. injection H as <-. reflexivity.
    - intro H. rewrite H. destruct i. reflexivity. }
  rewrite E, info_iff by (apply ordered_strong; auto). unfold info_spec, info_says. cbn [ri_piece_length ri_pieces ri_mode ri_name].
  rewrite number_fval, text_fval by auto.
  assert (PC : fval p_pieces (str "pieces") d None (Some (i_pieces i)) <-> i_pieces i <> [] /\ Forall wf_id (i_pieces i) /\ In (str "pieces", BStr (concat (i_pieces i))) d).
  { rewrite fval_some by auto. split.
    - intros (v & I & P). apply p_pieces_iff in P. destruct P as (N & F & ->). auto.
    - intros (N & F & I). eexists. split; [exact I|]. apply p_pieces_iff. auto. }
  assert (MD : mode_spec d None (Some (i_mode i)) <-> mode_says d (i_mode i)).
  { unfold mode_spec. destruct (lookup (str "length") d) as [v|] eqn:L.
    - assert (NA : ~ absent d "length") by (unfold absent; rewrite <- lookup_none, L; discriminate). split.
      + intros ((n & P & Q) & F). injection Q as ->. cbn [mode_says]. split.
        * apply p_uint_iff in P. destruct P as (-> & B). split; auto. apply lookup_some in L; auto.
        * destruct (lookup (str "files") d) as [w|] eqn:LF; [right|left; unfold absent; rewrite <- lookup_none; auto].
          destruct F as (fs & F). exists fs. apply files_say_iff; eauto.
      + destruct (i_mode i) as [n|fs]; cbn [mode_says]; [|intros (A & _); contradiction]. intros ((I & B) & F). split.
        * exists n. split; auto. apply lookup_some in I; auto. rewrite L in I. injection I as ->. apply p_uint_iff. auto.
        * destruct (lookup (str "files") d) as [w|] eqn:LF; auto. destruct F as [A|(fs & F)].
          -- unfold absent in A. rewrite <- lookup_none, LF in A. discriminate.
          -- apply files_say_iff in F; auto. destruct F as (v' & E' & P). exists fs. congruence.
    - assert (AB : absent d "length") by (unfold absent; rewrite <- lookup_none; auto). split.
      + destruct (lookup (str "files") d) as [w|] eqn:LF; [|discriminate]. intros (fs & P & Q). injection Q as ->. cbn [mode_says]. split; auto. apply files_say_iff; eauto.
      + destruct (i_mode i) as [n|fs]; cbn [mode_says].
        * intros ((I & _) & _). apply lookup_some in I; auto. congruence.
        * intros (_ & F). apply files_say_iff in F; auto. destruct F as (v & E' & P). rewrite E'. eauto. }
  rewrite PC, MD. tauto.
Qed.

(** ** trackers *)
Lemma starts_with_iff : forall p s, starts_with p s = true <-> exists r, s = p ++ r.
Proof.
  induction p as [|x p IH]; intro s; cbn [starts_with app].
  - split; eauto.
  - destruct s as [|y s]; [split; [discriminate|intros (r & E); discriminate]|]. rewrite andb_true_iff, IH. split.
    + intros (E & r & ->). apply eqb_eq in E. subst. eauto.
    + intros (r & E). injection E as -> ->. split; [apply eqb_refl|eauto].
Qed.
Lemma tracker_new_iff : forall u t, tracker_new u = Val t <-> kind u t.
Proof.
  intros u t. unfold tracker_new. destruct (starts_with (str "udp") u) eqn:E1; [|destruct (starts_with (str "http") u) eqn:E2].
  - apply starts_with_iff in E1. destruct t as [x|x]; cbn [kind].
    + split; [discriminate|]. intros (-> & r & E). destruct E1 as (r' & ->). discriminate.
    + split; [intro H; injection H as <-; auto|intros (-> & _); auto].
  - apply starts_with_iff in E2. destruct t as [x|x]; cbn [kind].
    + split; [intro H; injection H as <-; auto|intros (-> & _); auto].
    + split; [discriminate|]. intros (-> & E). apply starts_with_iff in E. congruence.
  - split; [discriminate|]. destruct t as [x|x]; intros (-> & E); apply starts_with_iff in E; congruence.
Qed.
Lemma tracker_eqb_iff : forall a b, tracker_eqb a b = true <-> a = b.
Proof. intros [x|x] [y|y]; cbn; try (split; discriminate); rewrite bytes_eqb_eq; split; congruence. Qed.
Lemma hs_insert_in : forall x l y, In y (hs_insert x l) <-> y = x \/ In y l.
Proof.
  intros x l y. unfold hs_insert. destruct (existsb (tracker_eqb x) l) eqn:E.
  - apply existsb_exists in E. destruct E as (z & I & E). apply tracker_eqb_iff in E. subst z. split; [auto|intros [->|]; auto].
  - cbn. split; intros [->|]; auto.
Qed.
Lemma hs_insert_nodup : forall x l, NoDup l -> NoDup (hs_insert x l).
Proof.
  intros x l N. unfold hs_insert. destruct (existsb (tracker_eqb x) l) eqn:E; auto. constructor; auto. intro I.
  assert (existsb (tracker_eqb x) l = true) by (apply existsb_exists; exists x; split; [auto|apply tracker_eqb_iff; auto]). congruence.
Qed.
Lemma insert_urls : forall us l, NoDup l -> NoDup (fold_left insert_url us l) /\
  forall t, In t (fold_left insert_url us l) <-> In t l \/ exists u, In u us /\ kind u t.
Proof.
  induction us as [|u us IH]; intros l N; cbn [fold_left].
  - split; auto. intro t. split; [auto|]. intros [|(u & [] & _)]; auto.
  - assert (X : NoDup (insert_url l u) /\ forall t, In t (insert_url l u) <-> In t l \/ kind u t).
    { unfold insert_url. destruct (tracker_new u) as [x| |] eqn:E.
      - split; [apply hs_insert_nodup; auto|]. intro t. rewrite hs_insert_in, <- tracker_new_iff, E. split; intros [H|H]; auto; [subst; auto|injection H as ->; auto].
      - split; auto. intro t. rewrite <- tracker_new_iff, E. split; [auto|intros [|]; [auto|discriminate]].
      - split; auto. intro t. rewrite <- tracker_new_iff, E. split; [auto|intros [|]; [auto|discriminate]]. }
    destruct X as (N' & X). destruct (IH _ N') as (N2 & Y). split; auto. intro t. rewrite Y, X. split.
    + intros [[H|H]|(v & I & K)]; auto; right; [exists u|exists v]; cbn; auto.
    + intros [H|(v & [->|I] & K)]; auto. right. eauto.
Qed.
Fixpoint gather (d : list (bytes * bval)) : res (list bytes) :=
  match d with
  | [] => Val []
  | (k, v) :: t =>
    if bytes_eqb k (str "announce") then rbind (p_string v) (fun u => rmap (cons u) (gather t))
    else if bytes_eqb k (str "announce-list") then rbind (p_list (p_list p_string) v) (fun l => rmap (app (concat l)) (gather t))
    else gather t
  end.
Lemma tiers_iff : forall v l, p_list (p_list p_string) v = Val l <-> exists x, v = BList x /\ Forall2 texts x l.
Proof.
  intros v l. destruct v as [z|s|x|x]; cbn [p_list]; try (split; [discriminate|intros (y & E & _); discriminate]). rewrite map_res_iff. split.
  - intro F. exists x. split; auto. induction F; constructor; auto. apply p_strings_iff. auto.
  - intros (y & E & F). injection E as ->. induction F; constructor; auto. apply p_strings_iff. auto.
Qed.
Lemma tiers_in : forall x l u, Forall2 texts x l -> (In u (concat l) <-> exists tier, In (BList tier) x /\ In (BStr u) tier).
Proof.
  intros x l u F. induction F as [|t s x l T F IH]; cbn [concat In].
  - split; [intros []|intros (? & [] & _)].
  - rewrite in_app_iff, IH. destruct T as (-> & U). split.
    + intros [I|(tier & I & J)]; [exists (map BStr s); split; auto; apply in_map; auto|exists tier; auto].
    + intros (tier & [E|I] & J); [left|right; eauto]. injection E as <-. apply in_map_iff in J. destruct J as (y & E & J). injection E as ->. auto.
Qed.
Lemma tiers_exist : forall x, Forall (fun t => exists l, texts t l) x <-> exists l, Forall2 texts x l.
Proof.
  induction x as [|t x IH]; split.
  - intros _. exists []. constructor.
  - intros _. constructor.
  - intro F. inversion F as [|? ? (l & T) F']; subst. apply IH in F'. destruct F' as (ls & F'). exists (l :: ls). constructor; auto.
  - intros (ls & F). inversion F as [|? l ? ls' T F']; subst. constructor; [eauto|apply IH; eauto].
Qed.
Lemma gather_in : forall d us, gather d = Val us -> urls_ok d /\ forall u, In u us <-> url_of d u.
Proof.
  induction d as [|[k v] d IH]; intros us H; cbn [gather] in H.
  - injection H as <-. split; [split; intros v []|]. intro u. split; [intros []|]. intros [[]|(? & ? & [] & _)].
  - destruct (bytes_eqb k (str "announce")) eqn:E1; [|destruct (bytes_eqb k (str "announce-list")) eqn:E2].
    + apply bytes_eqb_eq in E1. subst k. apply rbind_iff in H. destruct H as (x & P & H). apply rmap_iff in H. destruct H as (us' & G & <-).
      apply p_string_iff in P. destruct P as (-> & U). destruct (IH _ G) as ((O1 & O2) & I). split.
      * split; intros v [E|J]; [injection E as <-; eauto|auto|discriminate|auto].
      * intro u. cbn [In]. rewrite I. unfold url_of. cbn [In]. split.
        -- intros [->|[J|(ts & t & J & K)]]; [auto|auto|right; exists ts, t; tauto].
        -- intros [[E|J]|(ts & t & [E|J] & K)]; [injection E as ->; auto|auto|discriminate|]. right. right. exists ts, t. auto.
    + apply bytes_eqb_eq in E2. subst k. apply rbind_iff in H. destruct H as (x & P & H). apply rmap_iff in H. destruct H as (us' & G & <-).
      apply tiers_iff in P. destruct P as (y & -> & F). destruct (IH _ G) as ((O1 & O2) & I). split.
      * split; intros v [E|J]; [discriminate|auto| |auto]. injection E as <-. exists y. split; auto. apply tiers_exist. eauto.
      * intro u. rewrite in_app_iff, I, (@tiers_in _ _ u F). unfold url_of. cbn [In]. split.
        -- intros [(t & J & K)|[J|(ts & t & J & K)]]; [right; exists y, t; auto|auto|right; exists ts, t; tauto].
        -- intros [[E|J]|(ts & t & [E|J] & K)]; [discriminate|auto| |]; [injection E as ->; left; eauto|]. right. right. exists ts, t. auto.
    + apply bytes_eqb_neq in E1, E2. destruct (IH _ H) as ((O1 & O2) & I). split.
      * split; intros v' [E|J]; try (injection E as ? _; congruence); auto.
      * intro u. rewrite I. unfold url_of. cbn [In]. split.
        -- intros [J|(ts & t & J & K)]; [auto|right; exists ts, t; tauto].
        -- intros [[E|J]|(ts & t & [E|J] & K)]; try (injection E as ? _; congruence); auto. right. exists ts, t. auto.
Qed.
Lemma gather_ex : forall d, urls_ok d -> exists us, gather d = Val us.
Proof.
  induction d as [|[k v] d IH]; intros (O1 & O2); cbn [gather]; [eauto|].
  destruct IH as (us & G); [split; intros v' I; [apply O1|apply O2]; right; auto|]. rewrite G. cbn [rmap].
  destruct (bytes_eqb k (str "announce")) eqn:E1; [|destruct (bytes_eqb k (str "announce-list")) eqn:E2; eauto].
  - apply bytes_eqb_eq in E1. subst k. destruct (O1 v) as (u & -> & U); [left; auto|]. rewrite (proj2 (p_string_iff (BStr u) u)) by auto. cbn. eauto.
  - apply bytes_eqb_eq in E2. subst k. destruct (O2 v) as (ts & -> & F); [left; auto|]. apply tiers_exist in F. destruct F as (l & F).
    rewrite (proj2 (tiers_iff (BList ts) l)) by eauto. cbn. eauto.
Qed.

(** ** no panic *)
Lemma map_res_np : forall A B (p : A -> res B) l, (forall x, p x <> Panic) -> map_res p l <> Panic.
Proof. intros A B p l H. induction l as [|x l IH]; cbn [map_res]; [discriminate|]. apply rbind_np; [auto|]. intro y. apply rmap_np. auto. Qed.
Lemma p_list_np : forall A (p : bval -> res A) v, (forall x, p x <> Panic) -> p_list p v <> Panic.
Proof. intros A p [z|s|l|l] H; cbn [p_list]; try discriminate. apply map_res_np. auto. Qed.
Lemma decode_file_np : forall v, decode_file v <> Panic.
Proof.
  intros [z|s|l|d]; cbn [decode_file]; try discriminate. apply rbind_np.
  - generalize (@None (list bytes)), (@None N). induction d as [|[k v] d IH]; intros a b; cbn [file_entries]; [discriminate|].
    destruct (bytes_eqb k (str "path")); [apply rbind_np; [apply p_list_np; exact p_string_np|auto]|].
    destruct (bytes_eqb k (str "length")); [apply rbind_np; [apply p_uint_np|auto]|auto].
  - intro w. repeat (apply rbind_np; [apply need_np|intro]). discriminate.
Qed.
Lemma decode_info_np : forall v, decode_info v <> Panic.
Proof.
  intros [z|s|l|d]; cbn [decode_info]; try discriminate. apply rbind_np.
  - generalize (mk_rawi None None None None). induction d as [|[k v] d IH]; intro w; cbn [info_entries]; [discriminate|]. apply rbind_np; auto.
    destruct w as [a b c e]. unfold info_entry. repeat match goal with |- (if ?b then _ else _) <> _ => destruct b end; try discriminate;
    try (apply rmap_np; first [apply p_string_np|apply p_uint_np|apply p_list_np; exact decode_file_np]).
    apply rbind_np; [destruct v; discriminate|]. intro raw. apply rmap_np. unfold deserialize_pieces_field. destruct (_ || _); discriminate.
  - intro w. repeat (apply rbind_np; [apply need_np|intro]). discriminate.
Qed.

(** ** torrents *)
Section Props.
Context (sha1 : bytes -> ID).
Definition p_info (v : bval) : res (metainfo * ID) :=
  match v with
  | BDict _ => match decode (enc v) with Some (v', _) => rmap (fun i => (i, sha1 (enc v))) (decode_info v') | None => Fail end
  | _ => Fail
  end.
Definition pair_up (a : option metainfo) (b : option ID) : option (metainfo * ID) :=
  match a, b with Some i, Some h => Some (i, h) | _, _ => None end.
Definition both (a : option (metainfo * ID)) (w : raw_torrent) : Prop :=
  rt_info w = option_map fst a /\ rt_hash w = option_map snd a.
Lemma torrent_entries_iff : forall d a w w', NoDup (map fst d) -> both a w ->
  (torrent_entries sha1 w d = Val w' <-> (exists a', both a' w' /\ fval p_info (str "info") d a a') /\
    exists us, gather d = Val us /\ rt_announce w' = fold_left insert_url us (rt_announce w)).
Proof.
  induction d as [|[k v] d IH]; intros a w w' ND B.
  - unfold fval. cbn [lookup torrent_entries gather]. split.
    + intro H. injection H as <-. split; [eauto|exists []; auto].
    + intros ((a' & (B1 & B2) & ->) & us & E & AN). injection E as <-. destruct B as (B3 & B4). destruct w, w'. cbn in *. congruence.
  - cbn [map fst] in ND. inversion ND as [|? ? NI ND']; subst. cbn [torrent_entries gather]. rewrite rbind_iff. destruct w as [wi wh wa].
    destruct (bytes_eq_dec k (str "info")) as [->|N1]; [|destruct (bytes_eq_dec k (str "announce")) as [->|N2]; [|destruct (bytes_eq_dec k (str "announce-list")) as [->|N3]]].
    + change (bytes_eqb (str "info") (str "announce")) with false. change (bytes_eqb (str "info") (str "announce-list")) with false. cbn iota.
      assert (EN : torrent_entry sha1 (mk_rawt wi wh wa) (str "info") v = rmap (fun x => mk_rawt (Some (fst x)) (Some (snd x)) wa) (p_info v)).
      { unfold torrent_entry, p_info. rewrite bytes_eqb_refl. destruct v as [z|s|l|l]; try reflexivity. destruct (decode (enc (BDict l))) as [[v' r]|]; [|reflexivity].
        destruct (decode_info v'); reflexivity. }
      rewrite EN. split.
      * intros (w & E & H). apply rmap_iff in E. destruct E as (x & P & <-). apply (@IH (Some x)) in H; [|auto|split; reflexivity].
        destruct H as ((a' & B' & F) & H). rewrite fval_absent in F by auto. subst a'. split; auto. exists (Some x). split; auto. apply fval_hit. eauto.
      * intros ((a' & B' & F) & H). apply fval_hit in F. destruct F as (x & P & ->). rewrite P. eexists. split; [reflexivity|].
        apply (@IH (Some x)); [auto|split; reflexivity|]. split; auto. exists (Some x). split; auto. apply fval_absent; auto.
    + rewrite bytes_eqb_refl. assert (EN : torrent_entry sha1 (mk_rawt wi wh wa) (str "announce") v = rmap (fun u => mk_rawt wi wh (insert_url wa u)) (p_string v)) by reflexivity.
      rewrite EN. split.
      * intros (w & E & H). apply rmap_iff in E. destruct E as (x & P & <-). apply (@IH a) in H; [|auto|exact B].
        destruct H as ((a' & B' & F) & us & G & AN). split; [exists a'; rewrite fval_miss by discriminate; auto|]. rewrite P, G. exists (x :: us). auto.
      * intros ((a' & B' & F) & us & G & AN). rewrite fval_miss in F by discriminate. apply rbind_iff in G. destruct G as (x & P & G). apply rmap_iff in G. destruct G as (us' & G & <-).
        rewrite P. eexists. split; [reflexivity|]. apply (@IH a); [auto|exact B|]. split; eauto.
    + change (bytes_eqb (str "announce-list") (str "announce")) with false. cbn iota. rewrite bytes_eqb_refl.
      assert (EN : torrent_entry sha1 (mk_rawt wi wh wa) (str "announce-list") v = rmap (fun l => mk_rawt wi wh (fold_left insert_url (concat l) wa)) (p_list (p_list p_string) v)) by reflexivity.
      rewrite EN. split.
      * intros (w & E & H). apply rmap_iff in E. destruct E as (x & P & <-). apply (@IH a) in H; [|auto|exact B].
        destruct H as ((a' & B' & F) & us & G & AN). split; [exists a'; rewrite fval_miss by discriminate; auto|]. rewrite P, G. exists (concat x ++ us). rewrite fold_left_app. auto.
      * intros ((a' & B' & F) & us & G & AN). rewrite fval_miss in F by discriminate. apply rbind_iff in G. destruct G as (x & P & G). apply rmap_iff in G. destruct G as (us' & G & <-).
        rewrite P. eexists. split; [reflexivity|]. apply (@IH a); [auto|exact B|]. rewrite fold_left_app in AN. split; eauto.
    + pose proof N1 as M1. pose proof N2 as M2. pose proof N3 as M3. apply bytes_eqb_neq in M1, M2, M3. rewrite M2, M3.
      assert (EN : torrent_entry sha1 (mk_rawt wi wh wa) k v = Val (mk_rawt wi wh wa)) by (unfold torrent_entry; rewrite M1, M2, M3; reflexivity).
      rewrite EN. split.
      * intros (w & E & H). injection E as <-. apply (@IH a) in H; auto. destruct H as ((a' & B' & F) & H). split; auto. exists a'. rewrite fval_miss by auto. auto.
      * intros ((a' & B' & F) & H). rewrite fval_miss in F by auto. eexists. split; [reflexivity|]. apply (@IH a); auto. split; eauto.
Qed.
Lemma depth10 : TORRENT_DEPTH <= MAX_DEPTH.
Proof. with_strategy transparent [MAX_DEPTH] (unfold MAX_DEPTH, TORRENT_DEPTH; lia). Qed.
Lemma list_max_in : forall x l, In x l -> x <= list_max l.
Proof. intros x l I. pose proof (proj1 (list_max_le l (list_max l)) (le_n _)) as F. rewrite Forall_forall in F. auto. Qed.
Lemma nest_in : forall d k v, In (k, v) d -> nest v < nest (BDict d).
Proof. intros d k v I. cbn [nest]. apply Nat.lt_succ_r. apply list_max_in. apply in_map_iff. exists (k, v). auto. Qed.
Lemma p_info_iff : forall v x, ordered v -> nest v <= MAX_DEPTH -> (p_info v = Val x <-> exists di, v = BDict di /\ info_says di (fst x) /\ snd x = sha1 (enc v)).
Proof.
  intros v [i h] O N. unfold p_info. destruct v as [z|s|l|l]; try (split; [discriminate|intros (di & E & _); discriminate]).
  unfold decode. pose proof (@decode_enc MAX_DEPTH _ [] O N) as E. rewrite app_nil_r in E. rewrite E. rewrite rmap_iff. split.
  - intros (j & D & F). injection F as -> <-. apply decode_info_iff in D; auto. exists l. auto.
  - intros (di & F & I & H). injection F as <-. cbn [fst snd] in *. exists i. split; [apply decode_info_iff; auto|congruence].
Qed.
Lemma decode_torrent_iff : forall d t, ordered (BDict d) -> nest (BDict d) <= TORRENT_DEPTH ->
  (decode_torrent sha1 (BDict d) = Val t <-> (exists di, In (str "info", BDict di) d /\ info_says di (t_info t) /\ t_info_hash t = sha1 (enc (BDict di))) /\
    exists us, gather d = Val us /\ t_announce t = fold_left insert_url us [] /\ t_announce t <> []).
Proof.
  intros d t O N. pose proof (ordered_nodup O) as ND. cbn [decode_torrent]. rewrite rbind_iff.
  assert (PI : forall x, fval p_info (str "info") d None (Some x) <-> exists di, In (str "info", BDict di) d /\ info_says di (fst x) /\ snd x = sha1 (enc (BDict di))).
  { intro x. rewrite fval_some by auto.
    assert (K : forall v, In (str "info", v) d -> ordered v /\ nest v <= MAX_DEPTH).
    { intros v I. split; [eapply ordered_dict_inv; eauto|]. apply nest_in in I. pose proof depth10. lia. }
    split.
    - intros (v & I & P). destruct (K v I) as (K1 & K2). apply p_info_iff in P; auto. destruct P as (di & -> & A & B). eauto.
    - intros (di & I & A & B). destruct (K _ I) as (K1 & K2). eexists. split; [exact I|]. apply p_info_iff; eauto. }
  split.
  - intros (w & E & H). apply (@torrent_entries_iff d None) in E; [|auto|split; reflexivity]. destruct E as ((a' & (B1 & B2) & F) & us & G & AN). cbn [rt_announce] in AN.
    destruct (rt_announce w) as [|x l] eqn:RA; [discriminate|]. rewrite B1, B2 in H. destruct a' as [[i h]|]; [|discriminate]. cbn [option_map fst snd need rbind] in H. injection H as <-.
    cbn [t_info t_info_hash t_announce]. apply PI in F. split; auto. exists us. repeat split; auto; congruence.
  - intros (I & us & G & AN & NE). exists (mk_rawt (Some (t_info t)) (Some (t_info_hash t)) (t_announce t)). split.
    + apply (@torrent_entries_iff d None); [auto|split; reflexivity|]. split; [|exists us; auto]. exists (Some (t_info t, t_info_hash t)). split; [split; reflexivity|]. apply PI. exact I.
    + cbn [rt_announce rt_info rt_hash need rbind]. destruct t as [i h [|x l]]; cbn in *; congruence.
Qed.

Lemma torrent_np : forall s, torrent_from_buf sha1 s <> Panic.
Proof.
  intro s. unfold torrent_from_buf. destruct (decode_at TORRENT_DEPTH s) as [[v tl]|]; [|discriminate]. destruct v as [z|x|l|d]; cbn [decode_torrent]; try discriminate.
  apply rbind_np.
  - generalize (mk_rawt None None []). induction d as [|[k v] d IH]; intro w; cbn [torrent_entries]; [discriminate|]. apply rbind_np; auto.
    destruct w as [a b c]. unfold torrent_entry. repeat match goal with |- (if ?b then _ else _) <> _ => destruct b end; try discriminate;
    try (apply rmap_np; first [apply p_string_np|apply p_list_np; intro; apply p_list_np; exact p_string_np]).
    destruct v; try discriminate. destruct (decode _) as [[v' ?]|]; [|discriminate]. apply rmap_np. apply decode_info_np.
  - intro w. destruct (rt_announce w); [discriminate|]. repeat (apply rbind_np; [apply need_np|intro]). discriminate.
Qed.
(** C56: a file is accepted only if it says what is read from it: name, piece
    length, the piece hashes in order, the files, and the trackers by scheme; the
    info hash is that of the bytes of the info dictionary. *)
Theorem C56_says : forall s t, torrent_from_buf sha1 s = Val t ->
  exists d tl, s = enc (BDict d) ++ tl /\ ordered (BDict d) /\ nest (BDict d) <= 10 /\ torrent_says sha1 d t.
Proof.
  intros s t H. unfold torrent_from_buf in H. destruct (decode_at TORRENT_DEPTH s) as [[v tl]|] eqn:D; [|discriminate].
  apply decode_inv in D. destruct D as (-> & O & N). destruct v as [z|x|l|d]; try discriminate. exists d, tl. repeat (split; [auto; fail|]).
  apply decode_torrent_iff in H; auto. destruct H as (I & us & G & AN & NE). split; auto. destruct (@gather_in _ _ G) as (UO & U). split; auto.
  destruct (@insert_urls us []) as (N1 & N2); [constructor|]. rewrite <- AN in N1, N2. split; auto. split; auto. intro x. rewrite N2. split.
  - intros [[]|(u & A & B)]. exists u. rewrite <- U. auto.
  - intros (u & A & B). right. exists u. rewrite U. auto.
Qed.
(** Every file that says it is accepted (trackers are a set: their order is
    open). *)
Theorem C56_accepted : forall d tl t, ordered (BDict d) -> nest (BDict d) <= 10 -> torrent_says sha1 d t ->
  exists l, torrent_from_buf sha1 (enc (BDict d) ++ tl) = Val (mk_torrent (t_info t) (t_info_hash t) l) /\ Permutation l (t_announce t).
Proof.
  intros d tl t O N (I & UO & ND & NE & TR). destruct (gather_ex UO) as (us & G). destruct (@gather_in _ _ G) as (_ & U).
  destruct (@insert_urls us []) as (N1 & N2); [constructor|]. set (l := fold_left insert_url us []) in *.
  assert (P : Permutation l (t_announce t)).
  { apply NoDup_Permutation; auto. intro x. rewrite N2, TR. split.
    - intros [[]|(u & A & B)]. exists u. rewrite <- U. auto.
    - intros (u & A & B). right. exists u. rewrite U. auto. }
  exists l. split; auto. unfold torrent_from_buf. rewrite decode_enc by auto. apply decode_torrent_iff; auto. cbn [t_info t_info_hash t_announce]. split; auto.
  exists us. repeat split; auto. intro E. rewrite E in P. apply Permutation_nil in P. auto.
Qed.
Lemma enc_dict_in : forall d k v, In (k, v) d -> exists pre post, enc_dict d = pre ++ enc_str k ++ enc v ++ post.
Proof.
  induction d as [|[k' v'] d IH]; intros k v I; [destruct I|]. destruct I as [E|I].
  - injection E as -> ->. exists [], (enc_dict d). reflexivity.
  - destruct (IH _ _ I) as (pre & post & E). exists (enc_str k' ++ enc v' ++ pre), post. cbn [enc_dict]. rewrite E, <- !app_assoc. reflexivity.
Qed.
(** The info hash is that of a stretch of the file itself. *)
Theorem C56_info_hash : forall s t, torrent_from_buf sha1 s = Val t ->
  exists pre raw post di, s = pre ++ str "4:info" ++ raw ++ post /\ t_info_hash t = sha1 raw /\ raw = enc (BDict di) /\ info_says di (t_info t).
Proof.
  intros s t H. destruct (C56_says _ H) as (d & tl & -> & _ & _ & (di & I & S & E) & _). destruct (enc_dict_in _ _ _ I) as (pre & post & F).
  exists (x64 :: pre), (enc (BDict di)), (post ++ tl), di. split; [|auto]. rewrite enc_BDict at 1. rewrite F. cbn [app]. f_equal. rewrite <- !app_assoc. reflexivity.
Qed.
(** A piece string that is empty or no multiple of 20 is refused. *)
Theorem C56_pieces_refused : forall d tl di p, ordered (BDict d) -> nest (BDict d) <= 10 -> In (str "info", BDict di) d -> In (str "pieces", BStr p) di ->
  p = [] \/ length p mod 20 <> 0 -> torrent_from_buf sha1 (enc (BDict d) ++ tl) = Fail.
Proof.
  intros d tl di p O N I J P. destruct (torrent_from_buf sha1 (enc (BDict d) ++ tl)) as [t| |] eqn:T; [exfalso|reflexivity|exfalso].
  - destruct (C56_says _ T) as (d' & tl' & E & O' & _ & (di' & I' & (_ & _ & (NE & W & K) & _) & _) & _).
    destruct (@C39_unique _ _ _ _ O O' E) as (E2 & _). injection E2 as <-. pose proof (ordered_nodup O) as ND.
    apply lookup_some in I, I'; auto. rewrite I in I'. injection I' as <-. apply lookup_some in I; auto.
    assert (ND' : NoDup (map fst di)) by (apply ordered_nodup; eapply ordered_dict_inv; eauto).
    apply lookup_some in J, K; auto. rewrite J in K. injection K as ->. destruct P as [P|P].
    + apply NE. destruct (i_pieces (t_info t)) as [|x l]; auto. apply Forall_inv in W. apply (f_equal (@length _)) in P. cbn [concat] in P. rewrite app_length in P. unfold wf_id, ID_LEN in W. cbn in P. lia.
    + apply P. rewrite concat_len by auto. rewrite Nat.mul_comm. apply Nat.mod_mul. lia.
  - revert T. apply torrent_np.
Qed.
(** A torrent without a tracker of either kind is refused. *)
Theorem C56_trackerless_refused : forall d tl, ordered (BDict d) -> nest (BDict d) <= 10 ->
  (forall u, url_of d u -> ~ (exists r, u = str "udp" ++ r) /\ ~ (exists r, u = str "http" ++ r)) -> torrent_from_buf sha1 (enc (BDict d) ++ tl) = Fail.
Proof.
  intros d tl O N U. destruct (torrent_from_buf sha1 (enc (BDict d) ++ tl)) as [t| |] eqn:T; [exfalso|reflexivity|exfalso].
  - destruct (C56_says _ T) as (d' & tl' & E & O' & _ & _ & _ & (_ & NE & TR)). destruct (@C39_unique _ _ _ _ O O' E) as (E2 & _). injection E2 as <-.
    destruct (t_announce t) as [|x l]; [congruence|]. destruct (proj1 (TR x)) as (u & A & B); [left; auto|]. destruct (U u A) as (U1 & U2). destruct x; cbn in B; tauto.
  - revert T. apply torrent_np.
Qed.
(** Reading never panics. *)
Theorem C56_never_panics : forall s, torrent_from_buf sha1 s <> Panic.
Proof. exact torrent_np. Qed.
End Props.

Lemma sum_iff : forall l n, fold_left (fun acc f => rbind acc (fun n => if (u64_max <? n + mf_length f)%N then Panic else Val (n + mf_length f)%N)) l (Val n) =
  if (u64_max <? n + total l)%N && negb (match l with [] => true | _ => false end) then Panic else Val (n + total l)%N.
Proof.
  assert (PANIC : forall l, fold_left (fun acc f => rbind acc (fun n => if (u64_max <? n + mf_length f)%N then Panic else Val (n + mf_length f)%N)) l Panic = Panic) by (induction l; auto).
  induction l as [|f l IH]; intro n; cbn [fold_left rbind total fold_right].
  - rewrite andb_false_r, N.add_0_r. reflexivity.
  - cbn [negb]. rewrite andb_true_r. change (fold_right (fun f n => mf_length f + n)%N 0%N l) with (total l). destruct (u64_max <? n + mf_length f)%N eqn:E.
    + rewrite PANIC. apply N.ltb_lt in E. rewrite (proj2 (N.ltb_lt _ _)) by lia. reflexivity.
    + rewrite IH, N.add_assoc. destruct l as [|g l]; [|cbn [negb]; rewrite andb_true_r; reflexivity]. cbn [negb total fold_right]. rewrite andb_false_r, N.add_0_r, E. reflexivity.
Qed.
(** The length is the single file's, or the sum of the files' (which must fit 64
    bits: else the client stops). *)
Theorem C56_length : forall i, match i_mode i with
  | Single n => info_length i = Val n
  | Multi fs => ((total fs < 2 ^ 64)%N -> info_length i = Val (total fs)) /\ ((2 ^ 64 <= total fs)%N -> info_length i = Panic)
  end.
Proof.
  intros [n p ps [k|fs]]; cbn [i_mode info_length]; [reflexivity|]. change (2 ^ 64)%N with 18446744073709551616%N. unfold sum_lengths. rewrite sum_iff, N.add_0_l. split; intro H.
  - unfold u64_max. rewrite (proj2 (N.ltb_ge _ _)) by lia. reflexivity.
  - unfold u64_max. rewrite (proj2 (N.ltb_lt _ _)) by lia. destruct fs; [cbn in H; lia|reflexivity].
Qed.
(** ** a case *)
Definition ex_hashes : list ID := [repeat x01 20; repeat x02 20].
Definition ex_info : list (bytes * bval) :=
  [(str "files", BList [BDict [(str "length", BInt 30000); (str "path", BList [BStr (str "a"); BStr (str "b")])];
                        BDict [(str "length", BInt 2000); (str "md5sum", BStr [xff]); (str "path", BList [BStr (str "c")])]]);
   (str "name", BStr (str "demo")); (str "piece length", BInt 16384); (str "pieces", BStr (concat ex_hashes)); (str "private", BInt 1)].
Definition ex_torrent : list (bytes * bval) :=
  [(str "announce", BStr (str "http://t/a"));
   (str "announce-list", BList [BList [BStr (str "http://t/a"); BStr (str "udp://u")]; BList []; BList [BStr (str "wss://w")]]);
   (str "comment", BStr (str "hi")); (str "info", BDict ex_info)].
Definition ex_read : metainfo :=
  mk_metainfo (str "demo") 16384 ex_hashes (Multi [mk_mfile [str "a"; str "b"] 30000; mk_mfile [str "c"] 2000]).
Definition ex_t (sha1 : bytes -> ID) : torrent := mk_torrent ex_read (sha1 (enc (BDict ex_info))) [Udp (str "udp://u"); Http (str "http://t/a")].
Example C56_example : forall sha1, torrent_from_buf sha1 (enc (BDict ex_torrent) ++ str "junk") = Val (ex_t sha1) /\
  info_length ex_read = Val 32000%N /\ http_trackers (ex_t sha1) = [str "http://t/a"] /\ count_pieces (ex_t sha1) = 2 /\
  ordered (BDict ex_torrent) /\ nest (BDict ex_torrent) <= TORRENT_DEPTH /\ torrent_says sha1 ex_torrent (ex_t sha1).
Proof.
  intro sha1. assert (E : torrent_from_buf sha1 (enc (BDict ex_torrent) ++ str "junk") = Val (ex_t sha1)) by (with_strategy transparent [MAX_DEPTH] (vm_compute; reflexivity)).
  split; [exact E|]. do 3 (split; [vm_compute; reflexivity|]).
  assert (D : decode_at TORRENT_DEPTH (enc (BDict ex_torrent) ++ str "junk") = Some (BDict ex_torrent, str "junk")) by (vm_compute; reflexivity).
  apply decode_inv in D. destruct D as (_ & O & N). split; [exact O|]. split; [exact N|].
  destruct (C56_says _ _ E) as (d & tl & F & O' & _ & S). destruct (@C39_unique _ _ _ _ O O' F) as (G & _). injection G as <-. exact S.
Qed.
(** Full statement one would like: the files of an accepted torrent fill its
    pieces. Nothing checks it: there may be fewer pieces than the files need, or
    pieces of length zero. *)
Definition bad_torrent (n plen : Z) : bytes :=
  enc (BDict [(str "announce", BStr (str "http://t/a"));
    (str "info", BDict [(str "length", BInt n); (str "name", BStr (str "x")); (str "piece length", BInt plen); (str "pieces", BStr (repeat x01 20))])]).
Theorem C56_consistent_refuted : forall sha1, exists s t n, torrent_from_buf sha1 s = Val t /\ info_length (t_info t) = Val n /\
  (N.of_nat (count_pieces t) * i_piece_length (t_info t) < n)%N.
Proof.
  intro sha1. exists (bad_torrent 100000 16384). eexists _, _. split; [with_strategy transparent [MAX_DEPTH] (vm_compute; reflexivity)|].
  split; [reflexivity|vm_compute; reflexivity].
Qed.
Theorem C56_piece_length_refuted : forall sha1, exists s t, torrent_from_buf sha1 s = Val t /\ i_piece_length (t_info t) = 0%N.
Proof.
  intro sha1. exists (bad_torrent 1 0). eexists. split; [with_strategy transparent [MAX_DEPTH] (vm_compute; reflexivity)|]. reflexivity.
Qed.
Print Assumptions C56_says.
Print Assumptions C56_accepted.
Print Assumptions C56_info_hash.
Print Assumptions C56_pieces_refused.
Print Assumptions C56_trackerless_refused.
Print Assumptions C56_never_panics.
Print Assumptions C56_length.
Print Assumptions C56_example.
Print Assumptions C56_consistent_refuted.
Print Assumptions C56_piece_length_refuted.
