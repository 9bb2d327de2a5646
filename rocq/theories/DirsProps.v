(** C38, C69: directories of multi-file torrents. *)
From Coq Require Import List NArith ZArith Lia Bool Arith Permutation Sorted.
From Coq Require Import Init.Byte.
From Verif Require Import Base FsModel DirsModel.
Import ListNotations.
Set Implicit Arguments.

(** ** vocabulary *)
(** An ordinary file name. *)
Definition clean (c : bytes) : Prop := c <> [] /\ ~ In slash c /\ c <> dot /\ c <> dotdot.
(** A torrent of ordinary names. *)
Definition clean_files (files : list tfile) : Prop := Forall (fun f => tf_path f <> [] /\ Forall clean (tf_path f)) files.
(** Every directory's parent exists. *)
Definition tree_ok (t : tree) : Prop := forall q c, In (q ++ [c]) t -> q = [] \/ In q t.
(** A path string for a list of components: each followed by a slash. *)
Definition spell (p : list bytes) : bytes := flat_map (fun c => c ++ [slash]) p.

(** ** proofs *)
Lemma bytes_eqb_neq' : forall a b, a <> b -> bytes_eqb a b = false.
Proof. intros a b H. destruct (bytes_eqb a b) eqn:E; auto. apply bytes_eqb_eq in E. contradiction. Qed.
Lemma cs_eqb_eq : forall a b, cs_eqb a b = true <-> a = b.
Proof.
  induction a as [|x a IH]; intros [|y b]; cbn; try (split; congruence). rewrite andb_true_iff, IH. split.
  - intros [E ->]. apply bytes_eqb_eq in E. congruence.
  - intro E. inversion E. subst. split; auto. apply bytes_eqb_refl.
Qed.
Lemma has_in : forall t d, has t d = true <-> In d t.
Proof.
  intros. unfold has. rewrite existsb_exists. split.
  - intros (x & H & E). apply cs_eqb_eq in E. subst. auto.
  - intro H. exists d. split; auto. apply cs_eqb_eq. auto.
Qed.
Lemma has_not : forall t d, ~ In d t -> has t d = false.
Proof. intros t d H. destruct (has t d) eqn:E; auto. apply has_in in E. contradiction. Qed.
Lemma byte_eqb_refl : forall b, Byte.eqb b b = true.
Proof. intro. apply (Byte.byte_dec_bl b b) || (destruct b; reflexivity). Qed.
Lemma split_ne : forall p, split p <> [].
Proof. destruct p; cbn; [discriminate|]. destruct (Byte.eqb b slash); [discriminate|]. destruct (split p); discriminate. Qed.
Lemma split_app : forall a b, split (a ++ [slash] ++ b) = split a ++ split b.
Proof.
  induction a as [|x a IH]; intro b; cbn [app split].
  - reflexivity.
  - specialize (IH b). cbn [app] in IH. rewrite IH. destruct (Byte.eqb x slash); auto. pose proof (@split_ne a). destruct (split a) as [|c r]; [congruence|]. reflexivity.
Qed.
Lemma split_plain : forall c, ~ In slash c -> split c = [c].
Proof.
  induction c as [|x c IH]; intro H; cbn [split]; auto. rewrite IH by (intro; apply H; right; auto).
  destruct (Byte.eqb x slash) eqn:E; auto. exfalso. apply H. left. destruct x; cbn in E; try discriminate; reflexivity.
Qed.
Lemma comps_app : forall a b, comps (a ++ [slash] ++ b) = comps a ++ comps b.
Proof. intros. unfold comps. rewrite split_app. apply filter_app. Qed.
Lemma comps_clean : forall c, clean c -> comps c = [c].
Proof.
  intros c (A & B & _). unfold comps. rewrite split_plain by auto. cbn [filter]. rewrite bytes_eqb_neq' by auto. reflexivity.
Qed.
Lemma comps_slash : forall a, comps (a ++ [slash]) = comps a.
Proof. intro a. pose proof (comps_app a []) as H. cbn [app] in H. change (a ++ [slash] ++ []) with (a ++ [slash]) in H. rewrite H. cbn. apply app_nil_r. Qed.
Lemma comps_spell : forall p a, Forall clean p -> comps (a ++ [slash] ++ spell p) = comps a ++ p.
Proof.
  induction p as [|c p IH]; intros a F; cbn [spell flat_map].
  - rewrite comps_app. reflexivity.
  - inversion F; subst. fold (spell p). replace (a ++ [slash] ++ (c ++ [slash]) ++ spell p) with ((a ++ [slash] ++ c) ++ [slash] ++ spell p) by (rewrite <- !app_assoc; reflexivity).
    rewrite IH by auto. rewrite comps_app, (@comps_clean c) by auto. rewrite <- app_assoc. reflexivity.
Qed.
Lemma comps_join : forall p a, p <> [] -> Forall clean p -> comps (a ++ [slash] ++ join p) = comps a ++ p.
Proof.
  induction p as [|c p IH]; intros a NE F; [congruence|]. inversion F; subst. destruct p as [|d p].
  - cbn [join]. rewrite comps_app, (@comps_clean c) by auto. reflexivity.
  - change (join (c :: d :: p)) with (c ++ [x2f] ++ join (d :: p)). change x2f with slash.
    replace (a ++ [slash] ++ c ++ [slash] ++ join (d :: p)) with ((a ++ [slash] ++ c) ++ [slash] ++ join (d :: p)) by (rewrite <- !app_assoc; reflexivity).
    rewrite IH by (auto; discriminate). rewrite comps_app, (@comps_clean c) by auto. rewrite <- app_assoc. reflexivity.
Qed.
Lemma walk_app : forall t a b cur, walk t cur (a ++ b) = match walk t cur a with Some d => walk t d b | None => None end.
Proof.
  induction a as [|c a IH]; intros b cur; cbn [walk app]; auto. destruct (bytes_eqb c dot); auto. destruct (bytes_eqb c dotdot); auto.
  destruct (has t (cur ++ [c])); auto.
Qed.
Lemma walk_clean : forall t c cur, clean c -> walk t cur [c] = if has t (cur ++ [c]) then Some (cur ++ [c]) else None.
Proof. intros t c cur (A & B & C & D). cbn [walk]. rewrite !bytes_eqb_neq' by auto. reflexivity. Qed.
(** Walking down directories that exist. *)
Lemma walk_down : forall t W p, Forall clean p -> (forall k, 0 < k <= length p -> In (W ++ firstn k p) t) -> walk t W p = Some (W ++ p).
Proof.
  intros t W p. induction p as [|c p IH] using rev_ind; intros F H; [rewrite app_nil_r; auto|].
  apply Forall_app in F as [F1 F2]. inversion F2; subst. rewrite walk_app, IH; auto.
  - rewrite walk_clean by auto. rewrite <- app_assoc. assert (In (W ++ p ++ [c]) t) as Q.
    { specialize (H (length (p ++ [c]))). rewrite firstn_all in H. apply H. rewrite app_length. cbn. lia. }
    apply has_in in Q. rewrite Q. reflexivity.
  - intros k K. specialize (H k). rewrite firstn_app in H. replace (k - length p) with 0 in H by lia. cbn [firstn] in H. rewrite app_nil_r in H.
    apply H. rewrite app_length. lia.
Qed.
Lemma locate_snoc : forall t a c cs, comps a = cs ++ [c] -> clean c -> locate t a = match walk t [] cs with Some d => Some (d ++ [c]) | None => None end.
Proof.
  intros t a c cs E (A & B & C & D). unfold locate. rewrite E. destruct (cs ++ [c]) eqn:Q; [destruct cs; discriminate|]. rewrite <- Q.
  rewrite last_last, removelast_last. rewrite !bytes_eqb_neq' by auto. reflexivity.
Qed.
Lemma walk_mono : forall t t' cs cur d, (forall x, In x t -> In x t') -> walk t cur cs = Some d -> walk t' cur cs = Some d.
Proof.
  induction cs as [|c cs IH]; intros cur d S H; cbn [walk] in *; auto. destruct (bytes_eqb c dot); auto. destruct (bytes_eqb c dotdot); auto.
  destruct (has t (cur ++ [c])) eqn:E; [|discriminate]. apply has_in, S, has_in in E. rewrite E. auto.
Qed.

(** The elements of the set. *)
Lemma prefixes_spec : forall p acc x, In x (prefixes acc p) <-> exists k, 0 < k <= length p /\ x = acc ++ spell (firstn k p).
Proof.
  induction p as [|c p IH]; intros acc x; cbn [prefixes].
  - split; [intros []|]. intros (k & K & _). cbn in K. lia.
  - split.
    + intros [<-|H].
      * exists 1. cbn. split; [lia|]. rewrite app_nil_r. auto.
      * apply IH in H as (k & K & ->). exists (S k). cbn [length firstn spell flat_map]. split; [lia|]. rewrite <- !app_assoc. reflexivity.
    + intros ([|k] & K & ->); [lia|]. cbn [length firstn spell flat_map] in *. destruct k as [|k].
      * left. cbn. rewrite app_nil_r. reflexivity.
      * right. apply IH. exists (S k). split; [lia|]. rewrite <- !app_assoc. reflexivity.
Qed.
Lemma removelast_firstn_len : forall A (p : list A), removelast p = firstn (length p - 1) p.
Proof.
  induction p as [|a p IH]; auto. cbn [removelast length]. destruct p; auto. rewrite IH. cbn [length]. replace (S (S (length p)) - 1) with (S (length p)) by lia.
  cbn [firstn]. f_equal. f_equal. lia.
Qed.
Lemma all_dirs_spec : forall files x, In x (all_dirs files) <-> exists f k, In f files /\ 0 < k < length (tf_path f) /\ x = spell (firstn k (tf_path f)).
Proof.
  intros files x. unfold all_dirs. rewrite in_flat_map. split.
  - intros (f & IF & H). unfold file_dirs in H. destruct (Nat.ltb_spec 1 (length (tf_path f))); [|destruct H].
    apply prefixes_spec in H as (k & K & ->). exists f, k. rewrite removelast_firstn_len, firstn_length in K. split; auto. split; [lia|].
    rewrite removelast_firstn_len, firstn_firstn. cbn [app]. f_equal. f_equal. lia.
  - intros (f & k & IF & K & ->). exists f. split; auto. unfold file_dirs. destruct (Nat.ltb_spec 1 (length (tf_path f))); [|lia].
    apply prefixes_spec. exists k. rewrite removelast_firstn_len, firstn_length, firstn_firstn. split; [lia|]. cbn [app]. f_equal. f_equal. lia.
Qed.
Lemma depth_app : forall a b, depth (a ++ b) = depth a + depth b.
Proof. intros. unfold depth. rewrite filter_app, app_length. auto. Qed.
Lemma depth_plain : forall c, ~ In slash c -> depth c = 0.
Proof.
  intros c H. unfold depth. replace (filter (fun b => Byte.eqb b slash) c) with (@nil byte); auto. symmetry.
  induction c as [|x c IH]; auto. cbn [filter]. rewrite IH by (intro; apply H; right; auto).
  destruct (Byte.eqb x slash) eqn:E; auto. exfalso. apply H. left. destruct x; cbn in E; try discriminate; reflexivity.
Qed.
Lemma depth_spell : forall p, Forall clean p -> depth (spell p) = length p.
Proof.
  induction p as [|c p IH]; intro F; auto. inversion F; subst. cbn [spell flat_map]. fold (spell p). rewrite !depth_app, IH by auto.
  destruct H1 as (_ & B & _). rewrite depth_plain by auto. cbn. lia.
Qed.
Lemma spell_inj : forall p q, Forall clean p -> Forall clean q -> spell p = spell q -> p = q.
Proof.
  intros p q FP FQ E. pose proof (@comps_spell p [] FP) as A. pose proof (@comps_spell q [] FQ) as B. rewrite E in A. rewrite A in B. cbn in B. auto.
Qed.
Lemma ins_perm : forall x l, Permutation (ins x l) (x :: l).
Proof. induction l; cbn; auto. destruct (_ <=? _); auto. rewrite IHl. constructor. Qed.
Lemma sort_perm : forall l, Permutation (sort_depth l) l.
Proof. induction l; cbn; auto. rewrite ins_perm. auto. Qed.
Definition dle (a b : bytes) : Prop := depth a <= depth b.
Lemma ins_sorted : forall x l, StronglySorted dle l -> StronglySorted dle (ins x l).
Proof.
  induction l as [|y t IH]; intro H; cbn [ins]. { constructor; constructor. }
  inversion H; subst. destruct (Nat.leb_spec (depth x) (depth y)).
  - constructor; auto. constructor; [exact H0|]. eapply Forall_impl; [|eassumption]. intros z Z. unfold dle in *. lia.
  - constructor; auto. rewrite ins_perm. constructor; auto. unfold dle. lia.
Qed.
Lemma sort_sorted : forall l, StronglySorted dle (sort_depth l).
Proof. induction l; cbn. constructor. apply ins_sorted. auto. Qed.

(** Creating a list of directories whose parents come earlier. *)
Lemma mkdirs_spec : forall wd W ps t, (forall p, Forall clean p -> comps (wd ++ spell p) = comps wd ++ p) ->
  walk t [] (comps wd) = Some W -> Forall (Forall clean) ps -> NoDup ps ->
  (forall p, In p ps -> p <> [] /\ ~ In (W ++ p) t) ->
  (forall a p b, ps = a ++ p :: b -> removelast p = [] \/ In (removelast p) a \/ (forall k, 0 < k <= length (removelast p) -> In (W ++ firstn k (removelast p)) t)) ->
  exists t', mkdirs t (map (fun p => wd ++ spell p) ps) = Val t' /\ forall q, In q t' <-> In q t \/ exists p, In p ps /\ q = W ++ p.
Proof.
  intros wd W ps t CW. revert t. induction ps as [|p ps IH]; intros t WK CL ND NT ORD; cbn [map mkdirs].
  - exists t. split; auto. intro q. split; auto. intros [H|(x & [] & _)]; auto.
  - inversion CL as [|? ? C1 C2]; subst. inversion ND as [|? ? N1 N2]; subst. destruct (NT p) as [PN PT]; [left; auto|].
    destruct (exists_last PN) as (p' & c & EP). subst p. apply Forall_app in C1 as [C1 C1']. inversion C1' as [|? ? CC _]; subst.
    assert (WP : walk t [] (comps wd ++ p') = Some (W ++ p')).
    { rewrite walk_app, WK. apply walk_down; auto. specialize (ORD [] (p' ++ [c]) ps eq_refl). rewrite removelast_last in ORD.
      destruct ORD as [->|[[]|H]]; auto. intros k K. cbn in K. lia. }
    unfold mkdir. rewrite (@locate_snoc t (wd ++ spell (p' ++ [c])) c (comps wd ++ p')); auto.
    2: { rewrite CW; [rewrite app_assoc; auto|]. apply Forall_app. auto. }
    rewrite WP. rewrite <- app_assoc, has_not by auto. cbn [rbind].
    destruct (IH ((W ++ p' ++ [c]) :: t)) as (t' & E & S); auto.
    + eapply walk_mono; [|exact WK]. intros x H. right. auto.
    + intros q Q. destruct (NT q) as [A B]; [right; auto|]. split; auto. intros [H|H]; auto. apply app_inv_head in H. subst q. contradiction.
    + intros a q b EQ. destruct (ORD ((p' ++ [c]) :: a) q b) as [H|[[H|H]|H]]; auto.
      * rewrite EQ. reflexivity.
      * right. right. rewrite <- H. intros k K. destruct (Nat.eq_dec k (length (p' ++ [c]))) as [->|NE].
        -- rewrite firstn_all. left. auto.
        -- right. rewrite app_length in *. cbn [length] in *. rewrite firstn_app. replace (k - length p') with 0 by lia. cbn [firstn]. rewrite app_nil_r.
           specialize (ORD [] (p' ++ [c]) ps eq_refl). rewrite removelast_last in ORD. destruct ORD as [->|[[]|O]]; [cbn [length] in *; lia|]. apply O. lia.
      * right. right. intros k K. right. apply H. auto.
    + exists t'. split; auto. intro q. rewrite S. cbn [In]. split.
      * intros [[H|H]|(x & X & ->)]; eauto.
      * intros [H|(x & [<-|X] & ->)]; eauto.
Qed.

(** ** C38 *)
(** The directory list holds every directory of every file once, whatever the
    names are and however the hash set is ordered. *)
Theorem C38_list : forall wd files u, set_of u (all_dirs files) ->
  NoDup (dirs_by_asc_depth wd u) /\
  forall d, In d (dirs_by_asc_depth wd u) <-> exists f k, In f files /\ 0 < k < length (tf_path f) /\ d = wd ++ spell (firstn k (tf_path f)).
Proof.
  intros wd files u [ND IN]. unfold dirs_by_asc_depth. split.
  - eapply Permutation_NoDup; [symmetry; apply sort_perm|]. apply FinFun.Injective_map_NoDup; auto. intros a b H. apply app_inv_head in H. auto.
  - intro d. assert (In d (sort_depth (map (fun x => wd ++ x) u)) <-> In d (map (fun x => wd ++ x) u)) as ->.
    { split; apply Permutation_in; [|symmetry]; apply sort_perm. }
    rewrite in_map_iff. split.
    + intros (x & <- & H). apply IN, all_dirs_spec in H as (f & k & A & B & ->). eauto.
    + intros (f & k & A & B & ->). eexists. split; [reflexivity|]. apply IN, all_dirs_spec. eauto.
Qed.
(** With ordinary names each directory comes after its parent. *)
Theorem C38_order_partial : forall wd files u a d b, clean_files files -> set_of u (all_dirs files) -> dirs_by_asc_depth wd u = a ++ d :: b ->
  exists f k, In f files /\ S k < length (tf_path f) /\ d = wd ++ spell (firstn (S k) (tf_path f)) /\
    (k = 0 \/ In (wd ++ spell (firstn k (tf_path f))) a).
Proof.
  intros wd files u a d b CL SU E. destruct (@C38_list wd files u SU) as [ND IN].
  assert (CF : forall f k, In f files -> Forall clean (firstn k (tf_path f))).
  { intros f k IF. unfold clean_files in CL. rewrite Forall_forall in CL. apply CL in IF as [_ IF]. rewrite <- (firstn_skipn k) in IF. apply Forall_app in IF. tauto. }
  assert (ID : In d (dirs_by_asc_depth wd u)) by (rewrite E; apply in_or_app; right; left; auto).
  assert (SPL : forall x, In x (dirs_by_asc_depth wd u) -> In x a \/ In x (d :: b)) by (intros x X; rewrite E in X; apply in_app_or in X; auto).
  apply IN in ID as (f & k & IF & K & ED). destruct k as [|k]; [lia|].
  exists f, k. split; auto. split; [lia|]. split; auto. destruct k as [|k]; [left; auto|]. right.
  destruct (SPL (wd ++ spell (firstn (S k) (tf_path f)))) as [IP|IP]; auto. { apply IN. exists f, (S k). split; auto. split; auto. lia. }
  exfalso. pose proof (sort_sorted (map (fun x => wd ++ x) u)) as SS. change (StronglySorted dle (dirs_by_asc_depth wd u)) in SS. rewrite E in SS.
  assert (LE : dle d (wd ++ spell (firstn (S k) (tf_path f)))).
  { clear -SS IP. induction a as [|x a IH]; cbn [app] in SS; inversion SS; subst; auto. destruct IP as [<-|IP]; [apply le_n|]. rewrite Forall_forall in H2. auto. }
  rewrite ED in LE.
  unfold dle in LE. rewrite !depth_app, !depth_spell in LE by auto. rewrite !firstn_length in LE. lia.
Qed.
(** Setting up a torrent of ordinary names succeeds, creates exactly the
    working directory and the directories of its files below it, and then
    every file path leads to its place below the working directory. *)
Theorem C38_created_partial : forall t base name files u B, tree_ok t -> walk t [] (comps base) = Some B -> clean name ->
  clean_files files -> set_of u (all_dirs files) -> ~ In (B ++ [name]) t ->
  exists t', new_multi t base name u = Val t' /\
    (forall q, In q t' <-> In q t \/ q = B ++ [name] \/ exists f k, In f files /\ 0 < k < length (tf_path f) /\ q = (B ++ [name]) ++ firstn k (tf_path f)) /\
    (forall f, In f files -> locate t' (file_path base name f) = Some ((B ++ [name]) ++ tf_path f)).
Proof.
  intros t base name files u B TO WB CN CL SU NW. set (W := B ++ [name]) in *. set (wd := working_dir base name).
  assert (CWD : comps wd = comps base ++ [name]).
  { unfold wd, working_dir. rewrite comps_app, comps_slash, (comps_clean CN). reflexivity. }
  assert (CW : forall p, Forall clean p -> comps (wd ++ spell p) = comps wd ++ p).
  { intros p F. rewrite CWD. unfold wd, working_dir. replace ((base ++ [slash] ++ name ++ [slash]) ++ spell p) with ((base ++ [slash] ++ name) ++ [slash] ++ spell p) by (rewrite <- !app_assoc; reflexivity).
    rewrite comps_spell by auto. rewrite comps_app, (comps_clean CN). reflexivity. }
  assert (NE : forall p, ~ In (W ++ p) t).
  { intro p. induction p as [|c p IH] using rev_ind; [rewrite app_nil_r; auto|]. rewrite app_assoc. intro H. apply TO in H as [H|H]; auto.
    unfold W in H. destruct B; discriminate. }
  assert (CF : forall f k, In f files -> Forall clean (firstn k (tf_path f))).
  { intros f k IF. unfold clean_files in CL. rewrite Forall_forall in CL. apply CL in IF as [_ IF]. rewrite <- (firstn_skipn k) in IF. apply Forall_app in IF. tauto. }
  assert (MK : mkdir t wd = Val (W :: t)).
  { unfold mkdir. rewrite (@locate_snoc t _ _ _ CWD CN), WB. fold W. rewrite has_not; auto. }
  destruct (@C38_list wd files u SU) as [ND IN].
  assert (PS : exists ps, dirs_by_asc_depth wd u = map (fun p => wd ++ spell p) ps /\ Forall (fun p => exists f k, In f files /\ 0 < k < length (tf_path f) /\ p = firstn k (tf_path f)) ps).
  { assert (G : forall l, (forall d, In d l -> In d (dirs_by_asc_depth wd u)) -> exists ps, l = map (fun p => wd ++ spell p) ps /\ Forall (fun p => exists f k, In f files /\ 0 < k < length (tf_path f) /\ p = firstn k (tf_path f)) ps).
    { induction l as [|d l IHl]; intro H; [exists []; auto|]. destruct IHl as (ps & -> & F). { intros. apply H. right. auto. }
      destruct (proj1 (IN d) (H d (or_introl eq_refl))) as (f & k & A1 & A2 & ->). exists (firstn k (tf_path f) :: ps). split; auto. constructor; auto. exists f, k. auto. }
    apply G. auto. }
  destruct PS as (ps & EP & FP). rewrite Forall_forall in FP.
  assert (CPS : Forall (Forall clean) ps). { apply Forall_forall. intros p H. apply FP in H as (f & k & A & _ & ->). auto. }
  assert (MEM : forall f k, In f files -> 0 < k < length (tf_path f) -> In (firstn k (tf_path f)) ps).
  { intros f k IF K. assert (In (wd ++ spell (firstn k (tf_path f))) (dirs_by_asc_depth wd u)) as H by (apply IN; eauto).
    rewrite EP in H. apply in_map_iff in H as (q & E & Q). apply app_inv_head in E. apply spell_inj in E; auto. congruence.
    rewrite Forall_forall in CPS. auto. }
  destruct (@mkdirs_spec wd W ps (W :: t) CW) as (t' & E & S); auto.
  - rewrite CWD, walk_app. rewrite (@walk_mono t (W :: t) _ _ _ (fun x H => in_cons W x t H) WB). rewrite walk_clean by auto. fold W.
    assert (has (W :: t) W = true) as -> by (apply has_in; left; auto). reflexivity.
  - rewrite EP in ND. clear -ND. induction ps; cbn in *; constructor; inversion ND; subst; auto. intro. apply H1. apply (in_map (fun p => wd ++ spell p)) in H. auto.
  - intros p H. apply FP in H as (f & k & A1 & A2 & ->). split.
    + intro Q. apply (f_equal (@length _)) in Q. rewrite firstn_length in Q. cbn in Q. lia.
    + intros [Q|Q]; [|apply (NE _ Q)]. rewrite <- (app_nil_r W) in Q at 1. apply app_inv_head in Q. apply (f_equal (@length _)) in Q. rewrite firstn_length in Q. cbn in Q. lia.
  - intros a p b EQ. destruct (@C38_order_partial wd files u (map (fun p => wd ++ spell p) a) (wd ++ spell p) (map (fun p => wd ++ spell p) b)) as (f & k & A1 & A2 & A3 & A4); auto.
    { rewrite EP, EQ, map_app. reflexivity. }
    assert (CPI : forall q, In q ps -> Forall clean q) by (apply Forall_forall; auto).
    assert (IP : In p ps) by (rewrite EQ; apply in_or_app; right; left; auto).
    apply app_inv_head in A3. apply spell_inj in A3; auto. subst p.
    assert (RL : removelast (firstn (S k) (tf_path f)) = firstn k (tf_path f)).
    { rewrite removelast_firstn_len, firstn_firstn, firstn_length. f_equal. lia. }
    rewrite RL. destruct A4 as [->|A4]; [left; reflexivity|]. right. left. apply in_map_iff in A4 as (q & Q1 & Q2). apply app_inv_head in Q1.
    apply spell_inj in Q1; auto; [congruence|]. apply CPI. rewrite EQ. apply in_or_app. auto.
  - assert (ST : forall q, In q t' <-> In q t \/ q = W \/ exists f k, In f files /\ 0 < k < length (tf_path f) /\ q = W ++ firstn k (tf_path f)).
    { intro q. rewrite S. split.
      - intros [[H|H]|(x & X & ->)]; auto. apply FP in X as (f & k & A & B1 & ->). right. right. eauto.
      - intros [H|[->|(f & k & A & B1 & ->)]]; [left; right; auto|left; left; auto|]. right. exists (firstn k (tf_path f)). split; auto. }
    exists t'. split; [|split; [exact ST|]].
    + unfold new_multi, create_dirs. fold wd. rewrite MK. cbn [rbind]. rewrite EP, E. reflexivity.
    + intros f IF. unfold clean_files in CL. rewrite Forall_forall in CL. destruct (CL f IF) as [PN PC].
      destruct (exists_last PN) as (p' & c & EPF).
      assert (CC : comps (file_path base name f) = (comps wd ++ p') ++ [c]).
      { unfold file_path. replace (base ++ [slash] ++ name ++ [slash] ++ join (tf_path f)) with ((base ++ [slash] ++ name) ++ [slash] ++ join (tf_path f)) by (rewrite <- !app_assoc; reflexivity).
        rewrite comps_join by auto. rewrite comps_app, (comps_clean CN), CWD, EPF. rewrite <- !app_assoc. reflexivity. }
      assert (CCl : clean c). { rewrite EPF in PC. apply Forall_app in PC as [_ PC]. inversion PC; auto. }
      rewrite (@locate_snoc t' _ _ _ CC CCl). rewrite CWD, !walk_app.
      rewrite (@walk_mono t t' _ _ _ (fun x H => proj2 (ST x) (or_introl H)) WB). rewrite walk_clean by auto. fold W.
      assert (has t' W = true) as -> by (apply has_in, ST; auto). rewrite walk_down.
      * rewrite EPF, <- app_assoc. reflexivity.
      * rewrite EPF in PC. apply Forall_app in PC. tauto.
      * intros k K. apply ST. right. right. exists f, k. split; auto. rewrite EPF, app_length. cbn [length]. split; [lia|].
        rewrite firstn_app. replace (k - length p') with 0 by lia. cbn [firstn]. rewrite app_nil_r. reflexivity.
Qed.
(** Names are not checked: a file name with a slash in it is written outside
    the torrent's directory. *)
Theorem C38_escape_refuted : exists t base name files u t' f q, tree_ok t /\ walk t [] (comps base) = Some [base] /\ clean name /\
  set_of u (all_dirs files) /\ new_multi t base name u = Val t' /\ In f files /\ Forall (fun c => c <> [] /\ c <> dot /\ c <> dotdot) (tf_path f) /\
  locate t' (file_path base name f) = Some q /\ firstn 2 q <> [base; name].
Proof.
  set (f := mk_tfile [[x2e; x2e; x2f; x78]] 1).
  exists [[[x64]]], [x64], [x74], [f], [], [[[x64]; [x74]]; [[x64]]], f, [[x64]; [x78]].
  split. { intros q c [H|[]]. left. destruct q as [|a [|b q]]; auto; discriminate. }
  split; [reflexivity|]. split. { repeat split; try discriminate. intros [H|[]]. discriminate. }
  split. { split; [constructor|]. intro x. cbn. tauto. }
  split; [reflexivity|]. split; [left; auto|]. split. { repeat constructor; discriminate. } split; [reflexivity|discriminate].
Qed.
(** A directory called [..] in a path makes the set-up panic. *)
Theorem C38_dotdot_refuted : exists t base name files u, tree_ok t /\ walk t [] (comps base) = Some [base] /\ clean name /\ set_of u (all_dirs files) /\
  ~ In [base; name] t /\ new_multi t base name u = Panic.
Proof.
  exists [[[x64]]], [x64], [x74], [mk_tfile [dotdot; [x78]] 1], [dotdot ++ [slash]].
  split. { intros q c [H|[]]. left. destruct q as [|a [|b q]]; auto; discriminate. }
  split; [reflexivity|]. split. { repeat split; try discriminate. intros [H|[]]. discriminate. }
  split. { split; [repeat constructor; intros []|]. intro x. cbn. tauto. } split; [|reflexivity]. intros [H|[]]. discriminate.
Qed.
Definition f_ab : tfile := mk_tfile [[x61]; [x62]; [x63]] 5.
Definition f_ad : tfile := mk_tfile [[x61]; [x64]] 2.
Example C38_example : clean_files [f_ad; f_ab] /\ set_of [[x61; x2f; x62; x2f]; [x61; x2f]] (all_dirs [f_ad; f_ab]) /\
  new_multi [[[x64]]] [x64] [x74] [[x61; x2f; x62; x2f]; [x61; x2f]] =
    Val [[[x64]; [x74]; [x61]; [x62]]; [[x64]; [x74]; [x61]]; [[x64]; [x74]]; [[x64]]].
Proof.
  split; [|split].
  - repeat constructor; try discriminate; cbn; intuition discriminate.
  - split; [repeat constructor; cbn; intuition discriminate|]. intro x. cbn. intuition.
  - reflexivity.
Qed.

(** ** C69 *)
(** Setting the storage up for a torrent that has been set up before. *)
Definition C69_resume_always (t : tree) (base name : bytes) (u : list bytes) : Prop :=
  forall t', new_multi t base name u = Val t' -> exists t'', new_multi t' base name u = Val t''.
(** It never works, whatever the torrent: the second start panics. *)
Lemma mkdirs_incl : forall l t t', mkdirs t l = Val t' -> forall q, In q t -> In q t'.
Proof.
  induction l as [|d l IH]; intros t t' H q Q; cbn [mkdirs] in H; [congruence|]. unfold mkdir in H. destruct (locate t d); [|discriminate].
  destruct (has t l0); [discriminate|]. cbn [rbind] in H. apply (IH _ _ H). right. auto.
Qed.
Theorem C69_resume_refuted : forall t base name u t', new_multi t base name u = Val t' -> new_multi t' base name u = Panic.
Proof.
  intros t base name u t' H. unfold new_multi, create_dirs in *. set (wd := working_dir base name) in *.
  destruct (mkdir t wd) as [t1| |] eqn:M; try discriminate. cbn [rbind] in H. destruct (mkdirs t1 (dirs_by_asc_depth wd u)) as [t2| |] eqn:E; try discriminate.
  inversion H. subst t2. clear H. unfold mkdir in M. destruct (locate t wd) as [d|] eqn:L; [|discriminate]. destruct (has t d) eqn:HD; [discriminate|].
  inversion M. subst t1. clear M. assert (IT : forall x, In x t -> In x t') by (intros; eapply mkdirs_incl; [exact E|right; auto]).
  assert (L' : locate t' wd = Some d).
  { unfold locate in *. destruct (comps wd); [discriminate|]. destruct (_ || _); [discriminate|].
    destruct (walk t [] (removelast (b :: l))) eqn:Wk; [|discriminate]. rewrite (@walk_mono t t' _ _ _ IT Wk). auto. }
  unfold mkdir. rewrite L'. assert (has t' d = true) as ->. { apply has_in. eapply mkdirs_incl; [exact E|left; auto]. } reflexivity.
Qed.
Theorem C69_witness_refuted : exists t base name u, ~ C69_resume_always t base name u.
Proof.
  exists [[[x64]]], [x64], [x74], []. intro H. destruct (H _ eq_refl) as (t'' & E). discriminate.
Qed.
Print Assumptions C38_created_partial.
