(** C87, C101, C139: one turn of a download task in any state, also in states the
    program does not reach because no owner is ever set. *)
From Coq Require Import List NArith ZArith Lia Bool Arith.
From Coq Require Import Init.Byte.
From Verif Require Import Base Assoc IdModel WireModel PendingModel ConnModel.
Import ListNotations.

(** ** Vocabulary *)
(** The event brings block [b] of piece [i], which was assigned to the task, and
    the task has a request open for a block of that number. *)
Definition handed (d : dl) (e : dl_event) (i b : nat) (data : bytes) : Prop :=
  exists m, e = EvBlock m /\ pm_index m = N.of_nat i /\ pm_begin m = N.of_nat (b * BLOCK_SIZE) /\ pm_block m = data /\
    In i (map fst (dl_pieces d)) /\ In b (map ba_block (dl_blocks d)).
(** Every fifth turn looks for new blocks. *)
Definition refills (d : dl) : Prop := dl_counter d mod 5 = 0.

(** ** Proofs *)
Lemma bs_pos : BLOCK_SIZE <> 0.
Proof. Transparent BLOCK_SIZE. intro H. apply (f_equal N.of_nat) in H. vm_compute in H. discriminate. Opaque BLOCK_SIZE. Qed.
Lemma remove_block_in : forall i l, (exists r, remove_block i l = Some r) <-> In i (map ba_block l).
Proof.
  intros i l. induction l as [|b t IH]; cbn [remove_block map In]; [split; [intros [r H]; discriminate|intros []]|].
  destruct (Nat.eqb_spec (ba_block b) i) as [E|E]; [split; eauto|]. rewrite <- IH. split.
  - intros [r H]. destruct (remove_block i t); [eauto|discriminate].
  - intros [H|[r H]]; [contradiction|]. rewrite H. cbn. eauto.
Qed.
Lemma dmget_in : forall i (l : list (nat * ID)), (exists h, dmget i l = Some h) <-> In i (map fst l).
Proof.
  intros i l. unfold dmget. induction l as [|[k v] t IH]; cbn [mget map fst In]; [split; [intros [r H]; discriminate|intros []]|].
  destruct (Nat.eqb_spec i k) as [E|E]; [subst; split; eauto|]. rewrite IH. split; [auto|intros [H|H]; [congruence|auto]].
Qed.
Section Turn.
  Variable sha1 : bytes -> ID.
  Variable checked : bool.
  Lemma wants_handed : forall s d e i b data, wants_lock s d e = Some (i, b, data) <-> handed d e i b data /\ pp_check_bounds s b data = true.
  Proof.
    intros s d e i b data. destruct e as [m|h k|k]; cbn [wants_lock]; [|split; [discriminate|intros [(m & E & _) _]; discriminate]..]. split.
    - destruct (Nat.eqb_spec (N.to_nat (pm_begin m) mod BLOCK_SIZE) 0) as [Z|Z]; cbn [negb]; [|discriminate].
      destruct (dmget (N.to_nat (pm_index m)) (dl_pieces d)) as [hh|] eqn:D; [|discriminate]. destruct (remove_block _ (dl_blocks d)) as [rr|] eqn:R; [|discriminate].
      destruct (pp_check_bounds _ _ _) eqn:C; [|discriminate]. intro H. injection H as <- <- <-. split; [|exact C]. exists m.
      split; [reflexivity|]. split; [lia|]. split; [pose proof (Nat.div_mod (N.to_nat (pm_begin m)) BLOCK_SIZE bs_pos); lia|]. split; [reflexivity|].
      split; [apply dmget_in; eauto|apply remove_block_in; eauto].
    - intros [(m' & E & I & B & Dt & P & Q) C]. injection E as <-. rewrite I, B, Nat2N.id, Nat2N.id, Nat.mod_mul, Nat.div_mul by exact bs_pos. cbn [Nat.eqb negb].
      apply dmget_in in P as [hh ->]. apply remove_block_in in Q as [rr ->]. rewrite Dt, C. reflexivity.
  Qed.
  Lemma handle_counter : forall s d e s1 d1 fin, dl_handle sha1 checked s d e = Val (s1, d1, fin) -> dl_counter d1 = dl_counter d.
  Proof.
    intros s d e s1 d1 fin. destruct e as [m|h k|k]; cbn [dl_handle]; [|intro H; injection H as <- <- <-; reflexivity..]. unfold dl_block.
    destruct (negb _); [intro H; injection H as <- <- <-; reflexivity|]. destruct (dmget _ _); [|intro H; injection H as <- <- <-; reflexivity].
    destruct (remove_block _ _) as [[rm rest]|]; [|intro H; injection H as <- <- <-; reflexivity].
    destruct (pp_add_block _ _ _ _ _) as [[q r]| |]; try discriminate. cbn [rbind fst snd]. destruct r as [| |k ds]; [intro H; injection H as <- <- <-; reflexivity|discriminate|].
    destruct (bytes_eqb _ _); [intro H; injection H as <- <- <-; reflexivity|]. destruct (pp_add_piece _ _); try discriminate; intro H; injection H as <- <- <-; reflexivity.
  Qed.
  (** Without the lock nothing happens to the shared pieces. *)
  Lemma handle_unlocked : forall s d e s1 d1 fin, wants_lock s d e = None -> dl_handle sha1 checked s d e = Val (s1, d1, fin) -> s1 = s /\ fin = [].
  Proof.
    intros s d e s1 d1 fin. destruct e as [m|h k|k]; cbn [dl_handle wants_lock]; [|intros _ H; injection H as <- <- <-; auto..]. unfold dl_block.
    destruct (negb _); [intros _ H; injection H as <- <- <-; auto|]. destruct (dmget _ _); [|intros _ H; injection H as <- <- <-; auto].
    destruct (remove_block _ _) as [[rm rest]|]; [|intros _ H; injection H as <- <- <-; auto].
    unfold pp_add_block. destruct (pp_check_bounds _ _ _); [discriminate|]. cbn [negb rbind fst snd]. intros _ H; injection H as <- <- <-; auto.
  Qed.

  (** ** Theorems *)
  (** A turn that finds the lock sound is a turn of the downloader alone (C108). *)
Theorem C87_turn : forall now s d e s' d' fin reqs,
    dl_turn sha1 checked false now s d e = Alive s' d' fin reqs <-> dl_step sha1 checked now s d e = Val (s', d', fin, reqs).
  Proof.
    intros now s d e s' d' fin reqs. unfold dl_turn, dl_step.
    assert (K : forall i b data, wants_lock s d e = Some (i, b, data) -> pp_add_block checked s i b data = Panic -> dl_handle sha1 checked s d e = Panic).
    { intros i b data. destruct e as [m|h k|k]; cbn [dl_handle wants_lock]; try discriminate. unfold dl_block. destruct (negb _); [discriminate|]. destruct (dmget _ _); [|discriminate].
      destruct (remove_block _ _) as [[rm rest]|]; [|discriminate]. destruct (pp_check_bounds _ _ _); [|discriminate]. intro H. injection H as <- <- <-. intros ->. reflexivity. }
    destruct (wants_lock s d e) as [[[i b] data]|] eqn:W.
    - destruct (pp_add_block checked s i b data) as [q| |] eqn:A.
      + destruct (dl_handle sha1 checked s d e) as [[[s1 d1] f1]| |]; cbn [rbind]; [|split; discriminate..]. destruct (_ =? 0).
        * destruct (pp_take _ _ _ _ _) as [[[s2 bl] cap]| |]; cbn [rbind]; split; intro H; try discriminate; injection H as <- <- <- <-; reflexivity.
        * cbn [rbind]. split; intro H; injection H as <- <- <- <-; reflexivity.
      + destruct (dl_handle sha1 checked s d e) as [[[s1 d1] f1]| |]; cbn [rbind]; [|split; discriminate..]. destruct (_ =? 0).
        * destruct (pp_take _ _ _ _ _) as [[[s2 bl] cap]| |]; cbn [rbind]; split; intro H; try discriminate; injection H as <- <- <- <-; reflexivity.
        * cbn [rbind]. split; intro H; injection H as <- <- <- <-; reflexivity.
      + rewrite (K _ _ _ eq_refl A). cbn [rbind]. split; discriminate.
    - destruct (dl_handle sha1 checked s d e) as [[[s1 d1] f1]| |]; cbn [rbind]; [|split; discriminate..]. destruct (_ =? 0).
      + destruct (pp_take _ _ _ _ _) as [[[s2 bl] cap]| |]; cbn [rbind]; split; intro H; try discriminate; injection H as <- <- <- <-; reflexivity.
      + cbn [rbind]. split; intro H; injection H as <- <- <- <-; reflexivity.
  Qed.
  (** A task that lives through a turn though another one left the lock poisoned
      has not touched the shared pieces and has not finished one, was not due to look for
      new blocks and was not given a block that fits. *)
Theorem C101_poisoned_turn : forall now s d e s' d' fin reqs, dl_turn sha1 checked true now s d e = Alive s' d' fin reqs ->
    s' = s /\ fin = [] /\ ~ refills d /\ forall i b data, handed d e i b data -> pp_check_bounds s b data = false.
  Proof.
    intros now s d e s' d' fin reqs. unfold dl_turn. destruct (wants_lock s d e) as [[[i b] data]|] eqn:W; [discriminate|].
    destruct (dl_handle sha1 checked s d e) as [[[s1 d1] f1]| |] eqn:E; try discriminate. destruct (Nat.eqb_spec (dl_counter d1 mod (ACTIVE_BLOCKS_PER_PEER / 3)) 0) as [Z|Z]; [discriminate|].
    intro H. injection H as <- <- <- <-. destruct (handle_unlocked _ _ _ _ _ _ W E) as [-> ->]. split; [reflexivity|]. split; [reflexivity|]. split.
    - unfold refills. rewrite (handle_counter _ _ _ _ _ _ E) in Z. exact Z.
    - intros i b data H. destruct (pp_check_bounds s b data) eqn:C; [|reflexivity]. exfalso. pose proof (proj2 (wants_handed s d e i b data) (conj H C)). congruence.
  Qed.
  (** A turn poisons the lock exactly if it was sound and storing a block or looking for
      new ones panics. *)
Theorem C101_turn_poisons : forall p now s d e, dl_turn sha1 checked p now s d e = Died true <->
    p = false /\ ((exists i b data, handed d e i b data /\ pp_add_block checked s i b data = Panic) \/
      exists s1 d1 fin, dl_handle sha1 checked s d e = Val (s1, d1, fin) /\ refills d /\ forall r, pp_take s1 now (keys (dl_pieces d1)) (dl_blocks d1) (dl_cap d1) <> Val r).
  Proof.
    intros p now s d e.
    assert (B : forall i b data, pp_add_block checked s i b data = Panic -> pp_check_bounds s b data = true).
    { intros i b data. unfold pp_add_block. destruct (pp_check_bounds s b data); [reflexivity|discriminate]. }
    assert (H5 : ACTIVE_BLOCKS_PER_PEER / 3 = 5) by reflexivity.
    assert (K : forall i b data, wants_lock s d e = Some (i, b, data) -> pp_add_block checked s i b data = Panic -> dl_handle sha1 checked s d e = Panic).
    { intros i b data. destruct e as [m|h k|k]; cbn [dl_handle wants_lock]; try discriminate. unfold dl_block. destruct (negb _); [discriminate|]. destruct (dmget _ _); [|discriminate].
      destruct (remove_block _ _) as [[rm rest]|]; [|discriminate]. destruct (pp_check_bounds _ _ _); [|discriminate]. intro H. injection H as <- <- <-. intros ->. reflexivity. }
    unfold dl_turn. rewrite H5. split.
    - intro H. destruct p.
      + exfalso. destruct (wants_lock s d e) as [[[i b] data]|]; [discriminate|]. destruct (dl_handle sha1 checked s d e) as [[[s1 d1] f1]| |]; try discriminate. destruct (_ =? 0); discriminate.
      + split; [reflexivity|]. destruct (wants_lock s d e) as [[[i b] data]|] eqn:W.
        * destruct (pp_add_block checked s i b data) as [q| |] eqn:A.
          1,2: right; destruct (dl_handle sha1 checked s d e) as [[[s1 d1] f1]| |] eqn:E; try discriminate; destruct (Nat.eqb_spec (dl_counter d1 mod 5) 0) as [Z|Z]; [|discriminate];
            exists s1, d1, f1; split; [reflexivity|]; split; [unfold refills; rewrite <- (handle_counter _ _ _ _ _ _ E); exact Z|];
            intros r R; rewrite R in H; destruct r as [[? ?] ?]; discriminate.
          left. exists i, b, data. split; [apply (wants_handed s); exact W|exact A].
        * right. destruct (dl_handle sha1 checked s d e) as [[[s1 d1] f1]| |] eqn:E; try discriminate. destruct (Nat.eqb_spec (dl_counter d1 mod 5) 0) as [Z|Z]; [|discriminate].
          exists s1, d1, f1. split; [reflexivity|]. split; [unfold refills; rewrite <- (handle_counter _ _ _ _ _ _ E); exact Z|]. intros r R. rewrite R in H. destruct r as [[? ?] ?]. discriminate.
    - intros [-> [(i & b & data & Hd & A)|(s1 & d1 & fin & E & R & T)]].
      + rewrite (proj2 (wants_handed s d e i b data) (conj Hd (B _ _ _ A))), A. reflexivity.
      + assert (N : match wants_lock s d e with None => None | Some (i, b, data) => match pp_add_block checked s i b data with Panic => Some true | _ => None end end = None).
        { destruct (wants_lock s d e) as [[[i b] data]|] eqn:W; [|reflexivity]. destruct (pp_add_block checked s i b data) eqn:A; try reflexivity. rewrite (K _ _ _ eq_refl A) in E. discriminate. }
        rewrite N, E. unfold refills in R. rewrite (handle_counter _ _ _ _ _ _ E), R. cbn [Nat.eqb]. destruct (pp_take _ _ _ _ _) as [[[a b] c]| |] eqn:P; [destruct (T _ eq_refl)|reflexivity..].
  Qed.
  (** In any state a turn sends nothing but requests, on its own connection, and nothing
      if that has ended; while it is open it sends all the requests of the turn. *)
Theorem C139_turn_sends : forall s t on_cmd now s' o x, con_step sha1 checked s (Turn t on_cmd now) = Some (s', o) -> nth_error (c_tasks s) t = Some x ->
    (forall u m, In (u, ToPeer m) o -> u = t /\ t_con x = true /\ exists r, m = Request r) /\
    (forall d e q d' fin reqs, t_con x = true -> t_dl x = Some d ->
      (if on_cmd then exists c cs, t_cmds x = c :: cs /\ e = cmd_event c else exists b bs, t_blocks x = b :: bs /\ e = EvBlock b) ->
      dl_turn sha1 checked (c_poisoned s) now (c_pp s) d e = Alive q d' fin reqs -> forall r, In r reqs <-> In (t, ToPeer (Request r)) o).
  Proof.
    intros s t on_cmd now s' o x H N. cbn [con_step] in H. rewrite N in H. destruct (t_dl x) as [d|] eqn:D; [|discriminate].
    assert (A : forall y r, after_turn s t y r = (s', o) -> t_con y = t_con x ->
      (forall u m, In (u, ToPeer m) o -> u = t /\ t_con x = true /\ exists q, m = Request q) /\
      (forall q d' fin reqs, t_con x = true -> r = Alive q d' fin reqs -> forall z, In z reqs <-> In (t, ToPeer (Request z)) o)).
    { intros y r E C. unfold after_turn in E. destruct r as [q0 d0 fin0 reqs0|pz]; injection E as <- <-.
      - rewrite C. split.
        + intros u m I. apply in_app_or in I as [I|I]; [apply in_map_iff in I as (f & F & _); discriminate|]. destruct (t_con x); [|destruct I]. apply in_map_iff in I as (r0 & F & _). injection F as <- <-. eauto.
        + intros q d' fin reqs O F z. injection F as <- <- <- <-. rewrite O. split.
          * intro I. apply in_or_app. right. apply in_map_iff. eauto.
          * intro I. apply in_app_or in I as [I|I]; [apply in_map_iff in I as (f & F & _); discriminate|]. apply in_map_iff in I as (r0 & F & I). injection F as ->. exact I.
      - split; [intros u m []|]. intros; discriminate. }
    destruct on_cmd.
    - destruct (t_cmds x) as [|c cs] eqn:Q; [discriminate|]. injection H as H. destruct (A _ _ H eq_refl) as [X Y]. split; [exact X|].
      intros d0 e q d' fin reqs O F (c0 & cs0 & F1 & ->) G. injection F as ->. injection F1 as <- <-. apply (Y _ _ _ _ O G).
    - destruct (t_blocks x) as [|c cs] eqn:Q; [discriminate|]. injection H as H. destruct (A _ _ H eq_refl) as [X Y]. split; [exact X|].
      intros d0 e q d' fin reqs O F (c0 & cs0 & F1 & ->) G. injection F as ->. injection F1 as <- <-. apply (Y _ _ _ _ O G).
  Qed.
End Turn.

(** A block that arrives though no block is counted as open: the overflow check
    panics inside the lock. The next task lives through a turn without the lock. *)
Example C101_turn_poisons_example : forall sha1, exists s0 s, let h := repeat x01 20 in
  let d := mk_dl [(0, h)] [mk_ba 0 0 Requested] 16 1 in let e := EvBlock (mk_piece 0 0 (repeat x07 5)) in
  pp_new 5 = Val s0 /\ pp_add_piece s0 0 = Val s /\ handed d e 0 0 (repeat x07 5) /\ dl_turn sha1 true false 0 s d e = Died true /\
  exists d', dl_turn sha1 true true 0 s d (EvStart h 1) = Alive s d' [] [].
Proof.
  intro sha1. eexists. eexists. cbn zeta. split; [vm_compute; reflexivity|]. split; [vm_compute; reflexivity|]. split; [|split].
  - eexists. split; [reflexivity|]. cbn. auto 8.
  - vm_compute. reflexivity.
  - eexists. vm_compute. reflexivity.
Qed.
Print Assumptions C87_turn.
Print Assumptions C101_poisoned_turn.
Print Assumptions C101_turn_poisons.
Print Assumptions C139_turn_sends.
