(** C123: a storage set-up that fails leaves the directories as they were; and
    exactly when setting up works (C69). *)
From Coq Require Import List NArith ZArith Lia Bool Arith Permutation.
From Coq Require Import Init.Byte.
From Verif Require Import Base FsModel DirsModel DirsProps CleanModel.
Import ListNotations.
Set Implicit Arguments.

Lemma below_spec : forall d q, at_or_below d q = true <-> exists p, q = d ++ p.
Proof.
  induction d as [|x d IH]; intro q; cbn [at_or_below].
  - split; [intros _; exists q; reflexivity|auto].
  - destruct q as [|y q].
    + split; [discriminate|]. intros (p & E). discriminate E.
    + rewrite andb_true_iff, IH. split.
      * intros (E & p & ->). apply bytes_eqb_eq in E. subst y. exists p. reflexivity.
      * intros (p & E). injection E as <- ->. split; [apply bytes_eqb_refl|eauto].
Qed.
(** Nothing stands below what is not there. *)
Lemma nothing_below : forall t W, tree_ok t -> W <> [] -> ~ In W t -> forall p, ~ In (W ++ p) t.
Proof.
  intros t W TO NE NW p. induction p as [|c p IH] using rev_ind; [rewrite app_nil_r; auto|]. rewrite app_assoc. intro H. apply TO in H as [H|H]; auto.
  destruct W; [congruence|discriminate H].
Qed.
Section clean.
Variable deny : list bytes -> bool.
Lemma mkdir_os_spec : forall t p t', mkdir_os deny t p = Some t' -> exists d, locate t p = Some d /\ ~ In d t /\ t' = d :: t.
Proof.
  intros t p t' H. unfold mkdir_os in H. destruct (locate t p) as [d|] eqn:L; [|discriminate]. destruct (has t d) eqn:E; [discriminate|]. cbn [orb] in H.
  destruct (deny d); [discriminate|]. injection H as <-. exists d. split; [reflexivity|]. split; [|reflexivity]. intro I. apply has_in in I. congruence.
Qed.
(** The way to a directory just created leads to it, then and later. *)
Lemma locate_walk : forall t p d t', locate t p = Some d -> (forall q, In q t -> In q t') -> In d t' -> walk t' [] (comps p) = Some d /\ d <> [].
Proof.
  intros t p d t' L M I. unfold locate in L. destruct (comps p) as [|c0 cs0]; [discriminate|]. assert (NC : c0 :: cs0 <> []) by discriminate. revert L NC. generalize (c0 :: cs0) as cs. intros cs L NC.
  destruct (bytes_eqb (last cs []) dot || bytes_eqb (last cs []) dotdot) eqn:D; [discriminate|]. apply orb_false_iff in D. destruct D as (D1 & D2).
  destruct (walk t [] (removelast cs)) as [b|] eqn:W; [|discriminate]. injection L as <-. split; [|destruct b; discriminate].
  assert (EC : walk t' [] cs = walk t' [] (removelast cs ++ [last cs []])) by (f_equal; apply app_removelast_last; exact NC). rewrite EC, walk_app. rewrite (@walk_mono t t' _ _ _ M W). cbn [walk]. rewrite D1, D2.
  apply has_in in I. rewrite I. reflexivity.
Qed.
Lemma make_fails : forall wd W l T t' , walk T [] (comps wd) = Some W -> In W T -> make deny T wd l = (t', false) ->
  exists T', (forall q, In q T -> In q T') /\ (forall q, In q t' <-> In q T' /\ ~ exists p, q = W ++ p).
Proof.
  intros wd W. induction l as [|d l IH]; intros T t' WK IW H; cbn [make] in H; [discriminate|].
  destruct (mkdir_os deny T d) as [T1|] eqn:M.
  - destruct (mkdir_os_spec _ _ M) as (e & _ & _ & ->). destruct (IH (e :: T) t') as (T' & A & B); auto.
    + apply (@walk_mono T); [intros; right; auto|exact WK].
    + right. exact IW.
    + exists T'. split; [intros q Q; apply A; right; exact Q|exact B].
  - injection H as <-. exists T. split; [auto|]. intro q. unfold remove_all. rewrite WK, filter_In, negb_true_iff. split; intros (A & B); (split; [exact A|]).
    + intro X. apply below_spec in X. congruence.
    + destruct (at_or_below W q) eqn:E; [|reflexivity]. apply below_spec in E. contradiction.
Qed.
(** ** C123 *)
(** Whatever the names in the torrent and whatever goes wrong: no directory that
    was there before is removed, and nothing stays of the torrent's own. *)
Theorem C123_nothing_lost_always : forall t base name u t', tree_ok t -> set_up deny t base name u = (t', false) ->
  (forall q, In q t -> In q t') /\
  (t' = t \/ exists W, locate t (working_dir base name) = Some W /\ forall p, ~ In (W ++ p) t').
Proof.
  intros t base name u t' TO H. unfold set_up, make_all in H. destruct (mkdir_os deny t _) as [T|] eqn:M; [|injection H as <-; auto].
  destruct (mkdir_os_spec _ _ M) as (W & L & NW & ->).
  destruct (@locate_walk t _ W (W :: t) L) as (WK & NE); [intros; right; auto|left; auto|].
  destruct (@make_fails _ W _ _ _ WK (or_introl eq_refl) H) as (T' & A & B). split.
  - intros q Q. apply B. split; [apply A; right; exact Q|]. intros (p & ->). exact (@nothing_below t W TO NE NW p Q).
  - right. exists W. split; [exact L|]. intros p I. apply B in I. apply (proj2 I). eauto.
Qed.
(** Only below the working directory is anything created, if all names are
    ordinary: then a failure leaves nothing behind. *)
Lemma make_clean_fails : forall wd W ps T t', (forall p, Forall clean p -> comps (wd ++ spell p) = comps wd ++ p) -> Forall (fun p => p <> [] /\ Forall clean p) ps ->
  walk T [] (comps wd) = Some W -> In W T -> make deny T wd (map (fun p => wd ++ spell p) ps) = (t', false) ->
  forall q, In q t' <-> In q T /\ ~ exists p, q = W ++ p.
Proof.
  intros wd W. induction ps as [|p ps IH]; intros T t' CW F WK IW H; cbn [map make] in H; [discriminate|]. inversion F as [|? ? (PN & PC) F']; subst.
  destruct (mkdir_os deny T _) as [T1|] eqn:M.
  - destruct (mkdir_os_spec _ _ M) as (e & L & _ & ->). destruct (exists_last PN) as (p' & c & EP). subst p. apply Forall_app in PC. destruct PC as (PC & PL). inversion PL; subst.
    assert (X : exists p, e = W ++ p).
    { rewrite (@locate_snoc T _ c (comps wd ++ p')) in L; auto.
      - rewrite walk_app, WK in L. destruct (walk T W p') as [b|] eqn:WB; [|discriminate]. injection L as <-.
        assert (Y : exists r, b = W ++ r).
        { clear - WB PC. revert W WB. induction p' as [|x p' IH]; intros W WB; cbn [walk] in WB; [injection WB as <-; exists []; rewrite app_nil_r; reflexivity|].
          inversion PC as [|? ? (C1 & C2 & C3 & C4) PC']; subst. rewrite (bytes_eqb_neq' C3), (bytes_eqb_neq' C4) in WB. destruct (has T (W ++ [x])); [|discriminate].
          destruct (IH PC' _ WB) as (r & ->). exists (x :: r). rewrite <- app_assoc. reflexivity. }
        destruct Y as (r & ->). exists (r ++ [c]). rewrite app_assoc. reflexivity.
      - rewrite CW by (apply Forall_app; auto). apply app_assoc. }
    destruct X as (p & ->). intro q. rewrite (IH ((W ++ p) :: T) t' CW F'); auto.
    + cbn [In]. split.
      * intros ([<-|A] & B); [exfalso; apply B; eauto|]. auto.
      * intros (A & B). auto.
    + apply (@walk_mono T); [intros; right; auto|exact WK].
    + right. exact IW.
  - injection H as <-. intro q. unfold remove_all. rewrite WK, filter_In, negb_true_iff. split; intros (A & B); (split; [exact A|]).
    + intro X. apply below_spec in X. congruence.
    + destruct (at_or_below W q) eqn:E; [|reflexivity]. apply below_spec in E. contradiction.
Qed.
Theorem C123_restored_partial : forall t base name files u t', tree_ok t -> clean name -> clean_files files -> set_of u (all_dirs files) ->
  set_up deny t base name u = (t', false) -> forall q, In q t' <-> In q t.
Proof.
  intros t base name files u t' TO CN CL SU H q. unfold set_up, make_all in H. set (wd := working_dir base name) in *.
  destruct (mkdir_os deny t wd) as [T|] eqn:M; [|injection H as <-; reflexivity].
  destruct (mkdir_os_spec _ _ M) as (W & L & NW & ->).
  destruct (@locate_walk t _ W (W :: t) L) as (WK & NE); [intros; right; auto|left; auto|].
  assert (CWD : comps wd = comps base ++ [name]).
  { unfold wd, working_dir. rewrite comps_app, comps_slash, (comps_clean CN). reflexivity. }
  assert (CW : forall p, Forall clean p -> comps (wd ++ spell p) = comps wd ++ p).
  { intros p F. rewrite CWD. unfold wd, working_dir. replace ((base ++ [slash] ++ name ++ [slash]) ++ spell p) with ((base ++ [slash] ++ name) ++ [slash] ++ spell p) by (rewrite <- !app_assoc; reflexivity).
    rewrite comps_spell by auto. rewrite comps_app, (comps_clean CN). reflexivity. }
  destruct (@C38_list wd files u SU) as [ND IN].
  assert (PS : exists ps, dirs_by_asc_depth wd u = map (fun p => wd ++ spell p) ps /\ Forall (fun p => p <> [] /\ Forall clean p) ps).
  { assert (G : forall l, (forall d, In d l -> In d (dirs_by_asc_depth wd u)) -> exists ps, l = map (fun p => wd ++ spell p) ps /\ Forall (fun p => p <> [] /\ Forall clean p) ps).
    { induction l as [|d l IHl]; intro X; [exists []; auto|]. destruct IHl as (ps & -> & F). { intros. apply X. right. auto. }
      destruct (proj1 (IN d) (X d (or_introl eq_refl))) as (f & k & A1 & A2 & ->). exists (firstn k (tf_path f) :: ps). split; auto. constructor; auto. split.
      - intro Q. apply (f_equal (@length _)) in Q. rewrite firstn_length in Q. cbn in Q. lia.
      - unfold clean_files in CL. rewrite Forall_forall in CL. apply CL in A1 as [_ A1]. rewrite <- (firstn_skipn k) in A1. apply Forall_app in A1. tauto. }
    apply G. auto. }
  destruct PS as (ps & EP & FP). rewrite EP in H. rewrite (@make_clean_fails wd W ps (W :: t) t' CW FP WK (or_introl eq_refl) H). cbn [In]. split.
  - intros ([<-|A] & B); [exfalso; apply B; exists []; rewrite app_nil_r; reflexivity|exact A].
  - intro A. split; [auto|]. intros (p & ->). exact (@nothing_below t W TO NE NW p A).
Qed.
End clean.
(** Without outside trouble this is the set-up of DirsModel.v. *)
Lemma make_plain : forall wd l t t', make (fun _ => false) t wd l = (t', true) <-> mkdirs t l = Val t'.
Proof.
  intros wd. induction l as [|d l IH]; intros t t'; cbn [make mkdirs]; [split; intro H; injection H as <-; reflexivity|].
  unfold mkdir_os, mkdir. destruct (locate t d) as [e|]; [|split; discriminate]. rewrite orb_false_r. destruct (has t e); cbn [rbind]; [split; discriminate|]. apply IH.
Qed.
Theorem C123_same_set_up : forall t base name u t', set_up (fun _ => false) t base name u = (t', true) <-> new_multi t base name u = Val t'.
Proof.
  intros t base name u t'. unfold set_up, make_all, new_multi, create_dirs, mkdir_os, mkdir. set (wd := working_dir base name). destruct (locate t wd) as [e|]; [|split; discriminate].
  rewrite orb_false_r. destruct (has t e); cbn [rbind]; [split; discriminate|]. rewrite make_plain. destruct (mkdirs _ _); split; congruence.
Qed.
(** A failure after the first directory, with ordinary names: the second is
    refused, the first and the working directory are removed again. *)
Example C123_example : exists t base name files u, tree_ok t /\ clean name /\ clean_files files /\ set_of u (all_dirs files) /\
  mkdir_os (fun d => Nat.eqb (length d) 4) t (working_dir base name) <> None /\
  set_up (fun d => Nat.eqb (length d) 4) t base name u = (t, false).
Proof.
  exists [[[x64]]], [x64], [x74], [f_ab; f_ad], (all_dirs [f_ab]). split; [|split; [|split; [|split; [|split]]]].
  - intros q c [H|[]]. destruct q as [|? [|? ?]]; try discriminate H. auto.
  - repeat split; try discriminate. cbn. intuition discriminate.
  - repeat constructor; try discriminate; cbn; intuition discriminate.
  - split; [repeat constructor; cbn; intuition discriminate|]. intro x. cbn. intuition.
  - discriminate.
  - reflexivity.
Qed.
(** A name with a slash in it: the directory created elsewhere stays. *)
Theorem C123_left_behind_refuted : exists t base name files u t' q, tree_ok t /\ clean name /\ set_of u (all_dirs files) /\
  set_up (fun _ => false) t base name u = (t', false) /\ In q t' /\ ~ In q t.
Proof.
  set (fs := [mk_tfile [[x2e; x2e; x2f; x65]; [x66]] 1; mk_tfile [[x78; x2f; x79]; [x66]] 1]).
  exists [[[x64]]], [x64], [x74], fs, (all_dirs fs). do 2 eexists. split; [|split; [|split; [|split; [|split]]]].
  - intros q c [H|[]]. destruct q as [|? [|? ?]]; try discriminate H. auto.
  - repeat split; try discriminate. cbn. intuition discriminate.
  - split; [repeat constructor; cbn; intuition discriminate|]. intro x. cbn. intuition.
  - vm_compute. reflexivity.
  - left. reflexivity.
  - cbn. intuition discriminate.
Qed.
(** ** C69 *)
(** Setting up a torrent of ordinary names works exactly if the base directory is
    there and has no directory of that name. *)
Theorem C69_exact : forall t base name files u, tree_ok t -> clean name -> clean_files files -> set_of u (all_dirs files) ->
  ((exists t', new_multi t base name u = Val t') <-> exists B, walk t [] (comps base) = Some B /\ ~ In (B ++ [name]) t) /\
  ((exists t', new_multi t base name u = Val t') \/ new_multi t base name u = Panic).
Proof.
  intros t base name files u TO CN CL SU. split.
  - split.
    + intros (t' & H). unfold new_multi, create_dirs in H. destruct (mkdir t _) as [t1| |] eqn:M; try discriminate. unfold mkdir in M.
      assert (CWD : comps (working_dir base name) = comps base ++ [name]) by (unfold working_dir; rewrite comps_app, comps_slash, (comps_clean CN); reflexivity).
      rewrite (@locate_snoc t _ _ _ CWD CN) in M. destruct (walk t [] (comps base)) as [B|]; [|discriminate]. exists B. split; [reflexivity|].
      destruct (has t (B ++ [name])) eqn:E; [discriminate|]. intro I. apply has_in in I. congruence.
    + intros (B & WB & N). destruct (@C38_created_partial t base name files u B TO WB CN CL SU N) as (t' & H & _). eauto.
  - unfold new_multi. destruct (create_dirs _ _ _); eauto.
Qed.
Print Assumptions C123_nothing_lost_always.
Print Assumptions C123_restored_partial.
Print Assumptions C123_same_set_up.
Print Assumptions C123_left_behind_refuted.
Print Assumptions C69_exact.
