(** C38 continued: where the directories and files of a torrent lie, whatever
    its names, and exactly which torrents stay in their directory. *)
From Coq Require Import List NArith ZArith Lia Bool Arith Permutation Sorted.
From Coq Require Import Init.Byte.
From Verif Require Import Base FsModel DirsModel DirsProps.
Import ListNotations.
Set Implicit Arguments.

(** ** vocabulary *)
(** Where a path leads, without looking at what exists: a dot stays, two dots
    go up, any other name goes down. *)
Definition go (cur : list bytes) (c : bytes) : list bytes :=
  if list_eq_dec Byte.byte_eq_dec c dot then cur else if list_eq_dec Byte.byte_eq_dec c dotdot then removelast cur else cur ++ [c].
Definition lead (cur cs : list bytes) : list bytes := fold_left go cs cur.
(** The names in the path of a file, also those a name with slashes consists of. *)
Definition parts (p : list bytes) : list bytes := flat_map comps p.
Definition ups (cs : list bytes) : nat := count_occ (list_eq_dec Byte.byte_eq_dec) cs dotdot.
Definition dots (cs : list bytes) : nat := count_occ (list_eq_dec Byte.byte_eq_dec) cs dot.
(** Nowhere in the path have more steps gone up than down. *)
Definition never_above (cs : list bytes) : Prop := forall k, 2 * ups (firstn k cs) + dots (firstn k cs) <= length (firstn k cs).
Definition within (W q : list bytes) : Prop := exists p, q = W ++ p.

(** ** proofs *)
Lemma go_model : forall cur c, go cur c = if bytes_eqb c dot then cur else if bytes_eqb c dotdot then removelast cur else cur ++ [c].
Proof.
  intros cur c. unfold go. destruct (list_eq_dec Byte.byte_eq_dec c dot) as [E|E]; [subst; reflexivity|]. rewrite (bytes_eqb_neq' E). destruct (list_eq_dec Byte.byte_eq_dec c dotdot) as [F|F]; [subst; reflexivity|]. rewrite (bytes_eqb_neq' F). reflexivity.
Qed.
Lemma lead_app : forall a b cur, lead cur (a ++ b) = lead (lead cur a) b.
Proof. intros. unfold lead. apply fold_left_app. Qed.
Lemma walk_lead : forall t cs cur d, walk t cur cs = Some d -> d = lead cur cs.
Proof.
  induction cs as [|c cs IH]; intros cur d H; cbn [walk] in H; [injection H as <-; reflexivity|]. unfold lead. cbn [fold_left]. fold (lead (go cur c) cs). rewrite go_model.
  destruct (bytes_eqb c dot); [auto|]. destruct (bytes_eqb c dotdot); [auto|]. destruct (has t (cur ++ [c])); [auto|discriminate].
Qed.
Lemma locate_lead : forall t p d, locate t p = Some d -> d = lead [] (comps p).
Proof.
  intros t p d H. unfold locate in H. destruct (comps p) as [|c0 cs] eqn:E; [discriminate|]. rewrite <- E in *. assert (NE : comps p <> []) by congruence.
  assert (LD : lead [] (comps p) = go (lead [] (removelast (comps p))) (last (comps p) [])) by (rewrite (app_removelast_last [] NE) at 1; rewrite lead_app; reflexivity).
  rewrite LD, go_model. destruct (bytes_eqb (last (comps p) []) dot); [discriminate|]. destruct (bytes_eqb (last (comps p) []) dotdot); [discriminate|]. cbn [orb] in H.
  destruct (walk t [] (removelast (comps p))) as [w|] eqn:WK; [|discriminate]. injection H as <-. rewrite (walk_lead _ _ _ WK). reflexivity.
Qed.
Lemma comps_join_any : forall p a, comps (a ++ [slash] ++ join p) = comps a ++ parts p.
Proof.
  induction p as [|c p IH]; intro a; [rewrite comps_app; reflexivity|]. destruct p as [|d p].
  - cbn [join]. rewrite comps_app. unfold parts. cbn [flat_map]. rewrite app_nil_r. reflexivity.
  - change (join (c :: d :: p)) with (c ++ [slash] ++ join (d :: p)). rewrite comps_app, IH. reflexivity.
Qed.
Lemma comps_spell_any : forall p a, comps (a ++ [slash] ++ spell p) = comps a ++ parts p.
Proof.
  induction p as [|c p IH]; intro a; [rewrite comps_app; reflexivity|]. unfold spell. cbn [flat_map]. fold (spell p).
  replace (a ++ [slash] ++ (c ++ [slash]) ++ spell p) with (a ++ [slash] ++ c ++ [slash] ++ spell p) by (rewrite <- !app_assoc; reflexivity). rewrite comps_app, IH. reflexivity.
Qed.
Lemma comps_file : forall base name f, comps (file_path base name f) = comps base ++ comps name ++ parts (tf_path f).
Proof. intros. unfold file_path. rewrite comps_app, comps_join_any. reflexivity. Qed.
Lemma comps_wd : forall base name, comps (working_dir base name) = comps base ++ comps name.
Proof. intros. unfold working_dir. rewrite comps_app, comps_slash. reflexivity. Qed.
Lemma comps_dir : forall base name p, comps (working_dir base name ++ spell p) = comps base ++ comps name ++ parts p.
Proof.
  intros. unfold working_dir. replace ((base ++ [slash] ++ name ++ [slash]) ++ spell p) with ((base ++ [slash] ++ name) ++ [slash] ++ spell p) by (rewrite <- !app_assoc; reflexivity).
  rewrite comps_spell_any, comps_app, <- app_assoc. reflexivity.
Qed.
Lemma mkdir_lead : forall t p t', mkdir t p = Val t' -> t' = lead [] (comps p) :: t.
Proof. intros t p t' H. unfold mkdir in H. destruct (locate t p) as [d|] eqn:L; [|discriminate]. destruct (has t d); [discriminate|]. injection H as <-. rewrite (locate_lead _ _ L). reflexivity. Qed.
Lemma mkdirs_lead : forall l t t', mkdirs t l = Val t' -> forall q, In q t' <-> In q t \/ exists p, In p l /\ q = lead [] (comps p).
Proof.
  induction l as [|p l IH]; intros t t' H q; cbn [mkdirs] in H.
  - injection H as <-. split; [auto|]. intros [A|(x & [] & _)]. exact A.
  - destruct (mkdir t p) as [t1| |] eqn:M; try discriminate. cbn [rbind] in H. apply mkdir_lead in M. subst t1. rewrite (IH _ _ H q). cbn [In]. split.
    + intros [[<-|A]|(x & A & ->)]; [right; exists p; auto|auto|right; exists x; auto].
    + intros [A|(x & [<-|A] & ->)]; [auto|auto|right; eauto].
Qed.

(** ** theorems *)
(** What a successful set-up has created, and where a file lies afterwards: the
    places the names lead to... *)
Theorem C38_created_where : forall t base name files u t', set_of u (all_dirs files) -> new_multi t base name u = Val t' ->
  forall q, In q t' <-> In q t \/ q = lead [] (comps base ++ comps name) \/
    exists f k, In f files /\ 0 < k < length (tf_path f) /\ q = lead [] (comps base ++ comps name ++ parts (firstn k (tf_path f))).
Proof.
  intros t base name files u t' SU H q. unfold new_multi, create_dirs in H. destruct (mkdir t (working_dir base name)) as [t1| |] eqn:M; try discriminate. cbn [rbind] in H. apply mkdir_lead in M. rewrite comps_wd in M. subst t1.
  destruct (mkdirs _ _) as [t2| |] eqn:D; try discriminate. injection H as <-. rewrite (mkdirs_lead _ _ D q). cbn [In]. destruct (@C38_list (working_dir base name) files u SU) as [_ IN]. split.
  - intros [[<-|A]|(p & A & ->)]; [auto|auto|]. apply IN in A as (f & k & A & B & ->). rewrite comps_dir. right. right. exists f, k. auto.
  - intros [A|[->|(f & k & A & B & ->)]]; [auto|auto|]. right. exists (working_dir base name ++ spell (firstn k (tf_path f))). rewrite comps_dir. split; [|auto]. apply IN. eauto.
Qed.
Theorem C38_where : forall t base name f q, locate t (file_path base name f) = Some q -> q = lead [] (comps base ++ comps name ++ parts (tf_path f)).
Proof. intros t base name f q H. rewrite <- comps_file. eapply locate_lead; eauto. Qed.

Lemma lead_below : forall W cs p, (forall k, 2 * ups (firstn k cs) + dots (firstn k cs) <= length p + length (firstn k cs)) ->
  exists p', lead (W ++ p) cs = W ++ p' /\ length p' + (2 * ups cs + dots cs) = length p + length cs.
Proof.
  intros W. induction cs as [|c cs IH]; intros p H; [exists p; cbn; auto|]. unfold lead. cbn [fold_left]. fold (lead (go (W ++ p) c) cs). unfold go, ups, dots in *. cbn [count_occ length].
  destruct (list_eq_dec Byte.byte_eq_dec c dot) as [->|ND]; [|destruct (list_eq_dec Byte.byte_eq_dec c dotdot) as [->|NU]].
  - destruct (IH p) as (p' & E & L).
    + intro k. specialize (H (S k)). cbn [firstn count_occ length] in H. destruct (list_eq_dec Byte.byte_eq_dec dot dotdot) as [X|_]; [discriminate|]. destruct (list_eq_dec Byte.byte_eq_dec dot dot) as [_|X]; [|congruence]. lia.
    + exists p'. split; [exact E|]. destruct (list_eq_dec Byte.byte_eq_dec dot dotdot) as [X|_]; [discriminate|]. lia.
  - assert (P : p <> []). { specialize (H 1). cbn in H. destruct p; [cbn in H; lia|discriminate]. }
    rewrite removelast_app by auto. assert (LP : length p = S (length (removelast p))). { destruct (exists_last P) as (x & y & ->). rewrite removelast_last, app_length. cbn. lia. }
    destruct (IH (removelast p)) as (p' & E & L).
    + intro k. specialize (H (S k)). cbn [firstn count_occ length] in H. destruct (list_eq_dec Byte.byte_eq_dec dotdot dotdot) as [_|X]; [|congruence]. destruct (list_eq_dec Byte.byte_eq_dec dotdot dot) as [X|_]; [discriminate|]. lia.
    + exists p'. split; [exact E|]. destruct (list_eq_dec Byte.byte_eq_dec dotdot dotdot) as [_|X]; [|congruence]. lia.
  - rewrite <- app_assoc. destruct (IH (p ++ [c])) as (p' & E & L).
    + intro k. specialize (H (S k)). cbn [firstn count_occ length] in H. destruct (list_eq_dec Byte.byte_eq_dec c dotdot) as [X|_]; [congruence|]. destruct (list_eq_dec Byte.byte_eq_dec c dot) as [X|_]; [congruence|]. rewrite app_length. cbn [length]. lia.
    + exists p'. split; [exact E|]. rewrite app_length in L. cbn [length] in L. lia.
Qed.
Lemma lead_outside : forall B n cs cur, ~ In n cs -> (forall p, cur <> (B ++ [n]) ++ p) -> forall p, lead cur cs <> (B ++ [n]) ++ p.
Proof.
  intros B n. induction cs as [|c cs IH]; intros cur NI O p; [apply O|]. unfold lead. cbn [fold_left]. fold (lead (go cur c) cs). apply IH; [cbn in NI; tauto|]. clear p. intro p. unfold go.
  destruct (list_eq_dec Byte.byte_eq_dec c dot); [apply O|]. destruct (list_eq_dec Byte.byte_eq_dec c dotdot).
  - intro E. destruct cur as [|x cur]; [destruct B; discriminate|]. rewrite (@app_removelast_last _ (x :: cur) []) in O by discriminate. rewrite E in O. apply (O (p ++ [last (x :: cur) []])). rewrite app_assoc. reflexivity.
  - intro E. destruct p as [|y p _] using rev_ind.
    + rewrite app_nil_r in E. apply app_inj_tail in E as [_ E]. cbn in NI. tauto.
    + rewrite app_assoc in E. apply app_inj_tail in E as [E _]. eapply O; exact E.
Qed.
Lemma lead_above : forall B n cs p, ~ In n cs -> (exists k, length p + length (firstn k cs) < 2 * ups (firstn k cs) + dots (firstn k cs)) -> forall q, lead ((B ++ [n]) ++ p) cs <> (B ++ [n]) ++ q.
Proof.
  intros B n. induction cs as [|c cs IH]; intros p NI [k K] q; [rewrite firstn_nil in K; cbn in K; lia|]. unfold lead. cbn [fold_left]. fold (lead (go ((B ++ [n]) ++ p) c) cs). assert (NI' : ~ In n cs) by (cbn in NI; tauto).
  destruct k as [|k]; [cbn in K; lia|]. unfold go, ups, dots in *. cbn [firstn count_occ length] in K.
  destruct (list_eq_dec Byte.byte_eq_dec c dot) as [->|ND]; [|destruct (list_eq_dec Byte.byte_eq_dec c dotdot) as [->|NU]].
  - apply IH; [auto|]. exists k. destruct (list_eq_dec Byte.byte_eq_dec dot dotdot) as [X|_]; [discriminate|]. lia.
  - destruct p as [|x p _] using rev_ind.
    + apply lead_outside; [auto|]. intros p E. rewrite app_nil_r, removelast_last in E. apply (f_equal (@length _)) in E. rewrite !app_length in E. cbn in E. lia.
    + rewrite app_assoc, removelast_last. apply IH; [auto|]. exists k. rewrite app_length in K. cbn [length] in K. lia.
  - rewrite <- app_assoc. apply IH; [auto|]. exists k. rewrite app_length. cbn [length]. lia.
Qed.
Lemma never_above_dec : forall cs, never_above cs \/ exists k, length (firstn k cs) < 2 * ups (firstn k cs) + dots (firstn k cs).
Proof.
  induction cs as [|c cs IH] using rev_ind; [left; intro k; rewrite firstn_nil; cbn; lia|]. destruct IH as [A|[k K]].
  - destruct (Nat.le_gt_cases (2 * ups (cs ++ [c]) + dots (cs ++ [c])) (length (cs ++ [c]))) as [L|L].
    + left. intro k. destruct (Nat.le_gt_cases k (length cs)) as [B|B].
      * rewrite firstn_app. replace (k - length cs) with 0 by lia. cbn [firstn]. rewrite app_nil_r. apply A.
      * rewrite firstn_all2 by (rewrite app_length; cbn; lia). exact L.
    + right. exists (length (cs ++ [c])). rewrite firstn_all. exact L.
  - right. exists (Nat.min k (length cs)). rewrite firstn_app. replace (Nat.min k (length cs) - length cs) with 0 by lia. cbn [firstn]. rewrite app_nil_r.
    destruct (Nat.min_spec k (length cs)) as [[_ ->]|[G ->]]; [exact K|]. rewrite firstn_all2 in K by lia. rewrite firstn_all. exact K.
Qed.
Lemma never_above_prefix : forall a b, never_above (a ++ b) -> never_above a.
Proof.
  intros a b H k. destruct (Nat.le_gt_cases k (length a)) as [L|L].
  - specialize (H k). rewrite firstn_app in H. replace (k - length a) with 0 in H by lia. cbn [firstn] in H. rewrite app_nil_r in H. exact H.
  - specialize (H (length a)). rewrite firstn_app, Nat.sub_diag in H. cbn [firstn] in H. rewrite app_nil_r, firstn_all in H. rewrite firstn_all2 by lia. exact H.
Qed.
(** ... so a file lies below the torrent's directory exactly if its path never
    leads above it (a path that names the directory itself may come back). *)
Theorem C38_inside_exact : forall t base name B f q, walk t [] (comps base) = Some B -> clean name -> ~ In name (parts (tf_path f)) ->
  locate t (file_path base name f) = Some q -> (within (B ++ [name]) q <-> never_above (parts (tf_path f))).
Proof.
  intros t base name B f q WB CN NI L. apply C38_where in L. rewrite lead_app, <- (walk_lead _ _ _ WB), lead_app, (comps_clean CN) in L.
  assert (E : lead B [name] = B ++ [name]). { destruct CN as (_ & _ & C1 & C2). cbn. rewrite go_model, !bytes_eqb_neq' by auto. reflexivity. } rewrite E in L. subst q. split.
  - intros [p Q]. destruct (never_above_dec (parts (tf_path f))) as [A|(k & K)]; [exact A|]. exfalso. apply (@lead_above B name (parts (tf_path f)) [] NI) with (q := p); [exists k; cbn [length]; lia|]. rewrite app_nil_r. exact Q.
  - intro A. destruct (@lead_below (B ++ [name]) (parts (tf_path f)) []) as (p & Q & _); [intro k; specialize (A k); cbn [length]; lia|]. rewrite app_nil_r in Q. exists p. exact Q.
Qed.
(** Everything of a torrent, its directories and its files, lies in its
    directory exactly if no path of a file leads above it. *)
Theorem C38_exact : forall t base name B files u t', walk t [] (comps base) = Some B -> clean name -> set_of u (all_dirs files) -> new_multi t base name u = Val t' ->
  (forall f, In f files -> ~ In name (parts (tf_path f)) /\ locate t' (file_path base name f) <> None) ->
  ((forall q, In q t' -> In q t \/ within (B ++ [name]) q) /\ (forall f q, In f files -> locate t' (file_path base name f) = Some q -> within (B ++ [name]) q) <->
   forall f, In f files -> never_above (parts (tf_path f))).
Proof.
  intros t base name B files u t' WB CN SU N F. pose proof (@C38_created_where t base name files u t' SU N) as CR.
  assert (WB' : walk t' [] (comps base) = Some B) by (eapply walk_mono; [|exact WB]; intros x X; apply CR; auto).
  assert (E : lead [] (comps base ++ comps name) = B ++ [name]). { rewrite lead_app, <- (walk_lead _ _ _ WB), (comps_clean CN). destruct CN as (_ & _ & C1 & C2). cbn. rewrite go_model, !bytes_eqb_neq' by auto. reflexivity. } split.
  - intros [_ A] f I. destruct (F f I) as [NI L]. destruct (locate t' (file_path base name f)) as [q|] eqn:LQ; [|congruence]. apply (@C38_inside_exact t' base name B f q WB' CN NI LQ). eapply A; eauto.
  - intro A. split.
    + intros q Q. apply CR in Q as [Q|[->|(f & k & I & K & ->)]]; [auto|right; rewrite E; exists []; rewrite app_nil_r; reflexivity|]. right. rewrite app_assoc, lead_app, E.
      specialize (A f I). rewrite <- (firstn_skipn k (tf_path f)) in A. unfold parts in A. rewrite flat_map_app in A. apply never_above_prefix in A. fold (parts (firstn k (tf_path f))) in A.
      destruct (@lead_below (B ++ [name]) (parts (firstn k (tf_path f))) []) as (p & Q & _); [intro j; specialize (A j); cbn [length]; lia|]. rewrite app_nil_r in Q. exists p. exact Q.
    + intros f q I L. apply (@C38_inside_exact t' base name B f q WB' CN (proj1 (F f I)) L). auto.
Qed.

(** A path that goes up and comes down again inside, and one that leaves: the
    names are [a/../b] and [a], then [../x]. *)
Definition f_in : tfile := mk_tfile [[x61]; [x2e; x2e; x2f; x62]] 1.
Definition f_out : tfile := mk_tfile [[x2e; x2e; x2f; x78]] 1.
Example C38_exact_example : exists t', walk [[[x64]]] [] (comps [x64]) = Some [[x64]] /\ clean [x74] /\ set_of [[x61; x2f]] (all_dirs [f_in; f_out]) /\
  new_multi [[[x64]]] [x64] [x74] [[x61; x2f]] = Val t' /\ (forall f, In f [f_in; f_out] -> ~ In [x74] (parts (tf_path f)) /\ locate t' (file_path [x64] [x74] f) <> None) /\
  never_above (parts (tf_path f_in)) /\ ~ never_above (parts (tf_path f_out)).
Proof.
  eexists. split; [reflexivity|]. split; [repeat split; try discriminate; intros [X|[]]; discriminate|]. split; [split; [repeat constructor; intros []|]; intro x; cbn; tauto|]. split; [reflexivity|].
  split; [intros f [<-|[<-|[]]]; (split; [cbn; intuition discriminate|discriminate])|]. split.
  - intro k. do 3 (destruct k as [|k]; [vm_compute; lia|]). rewrite firstn_all2 by (vm_compute; lia). vm_compute. lia.
  - intro A. specialize (A 1). vm_compute in A. lia.
Qed.

Print Assumptions C38_created_where.
Print Assumptions C38_where.
Print Assumptions C38_inside_exact.
Print Assumptions C38_exact.
