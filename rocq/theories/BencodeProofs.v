From Coq Require Import Decimal DecimalFacts DecimalN.
From Coq Require Import List NArith ZArith Lia Bool Arith Sorted.
From Coq Require Import Init.Byte.
From Verif Require Import Base BencodeModel BencodeSpec.
Import ListNotations.
Set Implicit Arguments.

Lemma eqb_refl : forall b, Byte.eqb b b = true.
Proof. intro b. apply Byte.byte_dec_lb. reflexivity. Qed.
Lemma eqb_eq : forall a b, Byte.eqb a b = true -> a = b.
Proof. intros. apply Byte.byte_dec_bl. auto. Qed.
Lemma eqb_neq : forall a b, a <> b -> Byte.eqb a b = false.
Proof. intros a b H. destruct (Byte.eqb a b) eqn:E; auto. apply eqb_eq in E. contradiction. Qed.

Lemma digit_bytes : forall b D d, digit b = Some D -> uint_bytes (D d) = b :: uint_bytes d.
Proof. intros b D d H. destruct b; try discriminate H; injection H as <-; reflexivity. Qed.
Lemma digit_of : forall d, d = Nil \/ exists b D d', digit b = Some D /\ d = D d'.
Proof.
  intros [|d|d|d|d|d|d|d|d|d|d]; [left; reflexivity|right..].
  - exists x30, D0, d; auto. - exists x31, D1, d; auto. - exists x32, D2, d; auto. - exists x33, D3, d; auto.
  - exists x34, D4, d; auto. - exists x35, D5, d; auto. - exists x36, D6, d; auto. - exists x37, D7, d; auto.
  - exists x38, D8, d; auto. - exists x39, D9, d; auto.
Qed.
Lemma digit_zero : forall b D, digit b = Some D -> b <> x30 -> forall d, unorm (D d) = D d.
Proof. intros b D H N d. destruct b; try discriminate H; try contradiction; injection H as <-; reflexivity. Qed.
Lemma take_digits_enc : forall term r d, digit term = None -> take_digits term (uint_bytes d ++ term :: r) = Some (d, r).
Proof.
  intros term r d T. induction d; cbn [uint_bytes app take_digits]; [rewrite eqb_refl; reflexivity|..];
  (rewrite eqb_neq by (intros <-; discriminate T); cbn [digit]; rewrite IHd; reflexivity).
Qed.
Lemma take_digits_inv : forall term s d r, take_digits term s = Some (d, r) -> s = uint_bytes d ++ term :: r.
Proof.
  intros term s. induction s as [|c t IH]; intros d r H; [discriminate|]. cbn [take_digits] in H.
  destruct (Byte.eqb c term) eqn:E; [injection H as <- <-; apply eqb_eq in E; subst; reflexivity|].
  destruct (digit c) as [D|] eqn:G; [|discriminate]. destruct (take_digits term t) as [[d' r']|]; [|discriminate].
  injection H as <- <-. rewrite (digit_bytes _ _ G). cbn. f_equal. apply IH. reflexivity.
Qed.
Lemma to_uint_norm : forall n, unorm (N.to_uint n) = N.to_uint n.
Proof. intro n. rewrite <- (DecimalN.Unsigned.to_of (N.to_uint n)), DecimalN.Unsigned.of_to. reflexivity. Qed.
Lemma take_nat_enc : forall term r n, digit term = None -> take_nat term (enc_num n ++ term :: r) = Some (n, r).
Proof.
  intros term r n T. unfold enc_num. pose proof (to_uint_norm n) as U. pose proof (DecimalN.Unsigned.of_to n) as O.
  destruct (digit_of (N.to_uint n)) as [E|(b & D & d & E1 & E2)].
  - rewrite E in U. discriminate.
  - rewrite E2 in *. rewrite (digit_bytes _ _ E1). cbn [app take_nat]. destruct (Byte.eqb b x30) eqn:B.
    + apply eqb_eq in B. subst b. injection E1 as <-. unfold unorm in U. cbn [nzhead] in U.
      destruct (nzhead d) eqn:Z.
      * injection U as <-. cbn [uint_bytes app]. rewrite eqb_refl. f_equal. f_equal. rewrite <- O. reflexivity.
      * exfalso. eapply nzhead_nonzero; exact Z.
      * discriminate. * discriminate. * discriminate. * discriminate. * discriminate. * discriminate. * discriminate. * discriminate. * discriminate.
    + rewrite E1, take_digits_enc by auto. rewrite O. reflexivity.
Qed.
Lemma take_nat_inv : forall term s n r, take_nat term s = Some (n, r) -> s = enc_num n ++ term :: r.
Proof.
  intros term [|c t] n r H; [discriminate|]. cbn [take_nat] in H. destruct (Byte.eqb c x30) eqn:E.
  - apply eqb_eq in E. subst c. destruct t as [|c t]; [discriminate|]. destruct (Byte.eqb c term) eqn:E; [|discriminate].
    injection H as <- <-. apply eqb_eq in E. subst. reflexivity.
  - destruct (digit c) as [D|] eqn:G; [|discriminate]. destruct (take_digits term t) as [[d r']|] eqn:T; [|discriminate].
    injection H as <- <-. unfold enc_num. rewrite DecimalN.Unsigned.to_of, (digit_zero G) by (intros ->; discriminate).
    rewrite (digit_bytes _ _ G). cbn. f_equal. apply take_digits_inv. exact T.
Qed.
Lemma take_str_enc : forall s r, take_str (enc_str s ++ r) = Some (s, r).
Proof.
  intros s r. unfold take_str, enc_str. rewrite <- app_assoc. cbn [app]. rewrite take_nat_enc by reflexivity.
  rewrite app_length. destruct (N.ltb_spec (N.of_nat (length s + length r)) (N.of_nat (length s))); [lia|].
  rewrite Nat2N.id, firstn_app, firstn_all, skipn_app, skipn_all, Nat.sub_diag, firstn_O, app_nil_r. reflexivity.
Qed.
Lemma take_str_inv : forall s k r, take_str s = Some (k, r) -> s = enc_str k ++ r.
Proof.
  intros s k r H. unfold take_str in H. destruct (take_nat x3a s) as [[n q]|] eqn:T; [|discriminate].
  destruct (N.ltb_spec (N.of_nat (length q)) n); [discriminate|]. injection H as <- <-. apply take_nat_inv in T. subst s.
  unfold enc_str. rewrite firstn_length_le by lia. rewrite N2Nat.id, <- app_assoc. cbn [app]. rewrite firstn_skipn. reflexivity.
Qed.
Lemma enc_num_cons : forall n, exists c t D, enc_num n = c :: t /\ digit c = Some D /\ (c = x30 -> n = 0%N).
Proof.
  intro n. unfold enc_num. pose proof (to_uint_norm n) as U. pose proof (DecimalN.Unsigned.of_to n) as O.
  destruct (digit_of (N.to_uint n)) as [E|(b & D & d & E1 & E2)].
  - rewrite E in U. discriminate.
  - rewrite E2 in *. exists b, (uint_bytes d), D. split; [apply digit_bytes; auto|]. split; [auto|]. intros ->. injection E1 as <-.
    unfold unorm in U. cbn [nzhead] in U. destruct (nzhead d) eqn:Z; try discriminate U.
    + injection U as <-. rewrite <- O. reflexivity.
    + exfalso. eapply nzhead_nonzero; exact Z.
Qed.
Lemma take_int_enc : forall z r, exists s, enc_int z = x69 :: s /\ take_int (s ++ r) = Some (z, r).
Proof.
  intros [|p|p] r; cbn [enc_int]; eexists; (split; [reflexivity|]).
  - reflexivity.
  - rewrite <- app_assoc. cbn [app]. destruct (enc_num_cons (Npos p)) as (c & t & D & E & G & _). unfold take_int. rewrite E. cbn [app].
    rewrite eqb_neq by (intros ->; discriminate G). rewrite app_comm_cons, <- E, take_nat_enc by reflexivity. reflexivity.
  - cbn [app take_int]. rewrite eqb_refl, <- app_assoc. cbn [app]. rewrite take_nat_enc by reflexivity. reflexivity.
Qed.
Lemma take_int_inv : forall s z r, take_int s = Some (z, r) -> x69 :: s = enc_int z ++ r.
Proof.
  intros [|c t] z r H; [discriminate|]. unfold take_int in H. destruct (Byte.eqb c x2d) eqn:E.
  - apply eqb_eq in E. subst c. destruct (take_nat x65 t) as [[[|p] q]|] eqn:T; try discriminate. injection H as <- <-.
    apply take_nat_inv in T. subst t. cbn. rewrite <- app_assoc. reflexivity.
  - destruct (take_nat x65 (c :: t)) as [[n q]|] eqn:T; [|discriminate]. injection H as <- <-. apply take_nat_inv in T. rewrite T.
    destruct n as [|p]; cbn; [reflexivity|]. rewrite <- app_assoc. reflexivity.
Qed.

(** order *)
Lemma bytes_lt_lex : forall a b, bytes_lt a b = true <-> lex a b.
Proof.
  induction a as [|x a IH]; intros [|y b]; cbn [bytes_lt].
  - split; [discriminate|]. intros [(u & t & H)|(p & u & v & s & t & H & _)]; [discriminate|destruct p; discriminate].
  - split; [|auto]. intros _. left. exists y, b. reflexivity.
  - split; [discriminate|]. intros [(u & t & H)|(p & u & v & s & t & H1 & H & _)]; [discriminate|destruct p; discriminate].
  - destruct (N.ltb_spec (b2n x) (b2n y)).
    + split; [|auto]. intros _. right. exists [], x, y, a, b. auto.
    + destruct (N.ltb_spec (b2n y) (b2n x)).
      * split; [discriminate|]. intros [(u & t & E)|(p & u & v & s & t & E1 & E2 & L)].
        -- injection E as -> E. lia.
        -- destruct p as [|z p]; cbn in E1, E2; injection E1 as -> E1; injection E2 as -> E2; lia.
      * assert (x = y) as -> by (rewrite <- (n2b_b2n x), <- (n2b_b2n y); f_equal; lia). rewrite IH. split.
        -- intros [(u & t & ->)|(p & u & v & s & t & -> & -> & L)]; [left; exists u, t; reflexivity|right].
           exists (y :: p), u, v, s, t. auto.
        -- intros [(u & t & E)|(p & u & v & s & t & E1 & E2 & L)]; [left; exists u, t; injection E as ->; reflexivity|right].
           destruct p as [|z p]; cbn in E1, E2; injection E1 as E1 E1'; injection E2 as E2 E2'; [subst; lia|].
           exists p, u, v, s, t. auto.
Qed.

(** structural induction *)
Section ind.
  Variable P : bval -> Prop.
  Hypothesis Hi : forall z, P (BInt z).
  Hypothesis Hs : forall s, P (BStr s).
  Hypothesis Hl : forall l, Forall P l -> P (BList l).
  Hypothesis Hd : forall l, Forall (fun kv => P (snd kv)) l -> P (BDict l).
  Fixpoint bval_ind' (v : bval) : P v :=
    match v with
    | BInt z => Hi z
    | BStr s => Hs s
    | BList l => Hl ((fix go l : Forall P l := match l with [] => Forall_nil _ | v :: t => Forall_cons _ (bval_ind' v) (go t) end) l)
    | BDict l => Hd ((fix go l : Forall (fun kv => P (snd kv)) l := match l with [] => Forall_nil _ | kv :: t => Forall_cons _ (bval_ind' (snd kv)) (go t) end) l)
    end.
End ind.
Fixpoint enc_list (l : list bval) : bytes := match l with [] => [x65] | v :: t => enc v ++ enc_list t end.
Fixpoint enc_dict (l : list (bytes * bval)) : bytes := match l with [] => [x65] | (k, v) :: t => enc_str k ++ enc v ++ enc_dict t end.
Lemma enc_BList : forall l, enc (BList l) = x6c :: enc_list l.
Proof. reflexivity. Qed.
Lemma enc_BDict : forall l, enc (BDict l) = x64 :: enc_dict l.
Proof. reflexivity. Qed.
Definition starts (c : byte) : Prop := c = x69 \/ c = x6c \/ c = x64 \/ exists D, digit c = Some D.
Lemma starts_ne : forall c, starts c -> c <> x65.
Proof. intros c [->|[->|[->|(D & H)]]]; try discriminate. intros ->. discriminate. Qed.
Lemma enc_str_head : forall s, exists c t, enc_str s = c :: t /\ exists D, digit c = Some D.
Proof. intro s. unfold enc_str. destruct (enc_num_cons (N.of_nat (length s))) as (c & t & D & E & G & _). rewrite E. exists c, (t ++ x3a :: s). eauto. Qed.
Lemma enc_head : forall v, exists c t, enc v = c :: t /\ starts c.
Proof.
  intros [z|s|l|l]; unfold starts.
  - destruct z; cbn; eexists; eexists; eauto.
  - cbn [enc]. destruct (enc_str_head s) as (c & t & E & D). exists c, t. auto.
  - rewrite enc_BList. exists x6c, (enc_list l). auto.
  - rewrite enc_BDict. exists x64, (enc_dict l). auto.
Qed.
Lemma enc_len : forall v, 1 <= length (enc v).
Proof. intro v. destruct (enc_head v) as (c & t & -> & _). cbn. lia. Qed.
Lemma enc_list_len : forall v, 1 <= length (enc_list v).
Proof. intros [|v t]; cbn; [lia|]. rewrite app_length. pose proof (enc_len v). lia. Qed.
Lemma enc_dict_len : forall v, 1 <= length (enc_dict v).
Proof. intros [|[k v] t]; cbn; [lia|]. rewrite !app_length. pose proof (enc_len v). lia. Qed.
Lemma list_max_cons : forall x l, list_max (x :: l) = Nat.max x (list_max l).
Proof. reflexivity. Qed.
Definition after (prev : option bytes) (l : list (bytes * bval)) : Prop :=
  match l with [] => True | (k, _) :: _ => key_after prev k = true end.

(** writing then reading *)
Lemma dec_enc : forall v, ordered v -> forall depth fuel r, nest v <= depth -> 2 * length (enc v) <= fuel ->
  dec_val fuel depth (enc v ++ r) = Some (v, r).
Proof.
  intro v. induction v as [z|s|l IH|l IH] using bval_ind'; intros O depth fuel r D F.
  - pose proof (enc_len (BInt z)). destruct fuel as [|fuel]; [lia|]. cbn [enc]. destruct (take_int_enc z r) as (s & -> & T). cbn [app dec_val].
    rewrite eqb_refl, T. reflexivity.
  - pose proof (enc_len (BStr s)). destruct fuel as [|fuel]; [lia|]. cbn [enc dec_val]. pose proof (take_str_enc s r) as T.
    destruct (enc_str_head s) as (c & t & E & Dg & G). rewrite E in *. cbn [app] in *.
    rewrite !eqb_neq by (intros ->; discriminate G). rewrite T. reflexivity.
  - rewrite enc_BList in *. cbn [nest] in D. destruct depth as [|depth]; [lia|]. cbn [length] in F. destruct fuel as [|fuel]; [lia|].
    cbn [app dec_val]. change (Byte.eqb x6c x69) with false. change (Byte.eqb x6c x6c) with true. cbn iota.
    assert (G : dec_list fuel depth (enc_list l ++ r) = Some (l, r)).
    { inversion_clear O as [| |? OL|]. assert (D' : list_max (map nest l) <= depth) by lia. clear D.
      assert (F' : 2 * length (enc_list l) <= fuel) by lia. clear F. revert fuel F'.
      induction l as [|v t IHl]; intros fuel F.
      - cbn in F. destruct fuel as [|fuel]; [lia|]. reflexivity.
      - cbn [enc_list] in *. rewrite app_length in F. pose proof (enc_len v). pose proof (enc_list_len t). destruct fuel as [|fuel]; [lia|].
        inversion_clear IH as [|? ? I1 I2]. inversion_clear OL as [|? ? O1 O2]. cbn [map] in D'. rewrite list_max_cons in D'.
        assert (Q : dec_val fuel depth (enc v ++ enc_list t ++ r) = Some (v, enc_list t ++ r)) by (apply I1; auto; lia).
        rewrite <- app_assoc. destruct (enc_head v) as (c & u & E & St). rewrite E in *. cbn [app dec_list] in *.
        rewrite eqb_neq by (apply starts_ne; auto). rewrite Q. rewrite (IHl I2 O2); [reflexivity|lia|cbn [length] in *; lia]. }
    rewrite G. reflexivity.
  - rewrite enc_BDict in *. cbn [nest] in D. destruct depth as [|depth]; [lia|]. cbn [length] in F. destruct fuel as [|fuel]; [lia|].
    cbn [app dec_val]. change (Byte.eqb x64 x69) with false. change (Byte.eqb x64 x6c) with false. change (Byte.eqb x64 x64) with true. cbn iota.
    assert (G : forall prev, after prev l -> dec_dict fuel depth prev (enc_dict l ++ r) = Some (l, r)).
    { inversion_clear O as [| | |? OL SL]. assert (D' : list_max (map (fun kv => nest (snd kv)) l) <= depth) by lia. clear D.
      assert (F' : 2 * length (enc_dict l) <= fuel) by lia. clear F. revert fuel F'.
      induction l as [|[k v] t IHl]; intros fuel F prev A.
      - cbn in F. destruct fuel as [|fuel]; [lia|]. reflexivity.
      - cbn [enc_dict] in *. rewrite !app_length in F. pose proof (enc_len v). pose proof (enc_dict_len t). destruct fuel as [|fuel]; [lia|].
        inversion_clear IH as [|? ? I1 I2]. inversion_clear OL as [|? ? O1 O2]. cbn [map fst snd] in *. rewrite list_max_cons in D'.
        inversion_clear SL as [|? ? S1 S2].
        assert (Q : dec_val fuel depth (enc v ++ enc_dict t ++ r) = Some (v, enc_dict t ++ r)) by (apply I1; auto; lia).
        assert (T : take_str (enc_str k ++ enc v ++ enc_dict t ++ r) = Some (k, enc v ++ enc_dict t ++ r)) by apply take_str_enc.
        rewrite <- !app_assoc. destruct (enc_str_head k) as (c & u & E & Dg & Gd). rewrite E in *. cbn [app dec_dict] in *.
        rewrite eqb_neq by (intros ->; discriminate Gd). rewrite T. cbn [after] in A. rewrite A, Q.
        rewrite (IHl I2 O2 S1); [reflexivity|lia|cbn [length] in *; lia|].
        destruct t as [|[k' v'] t]; cbn; auto. apply bytes_lt_lex. inversion_clear S2. auto. }
    rewrite G; [reflexivity|]. destruct l as [|[k v] t]; reflexivity.
Qed.

(** reading then writing *)
Lemma dec_inv : forall fuel,
  (forall depth s v r, dec_val fuel depth s = Some (v, r) -> s = enc v ++ r /\ ordered v /\ nest v <= depth) /\
  (forall depth s l r, dec_list fuel depth s = Some (l, r) -> s = enc_list l ++ r /\ Forall ordered l /\ list_max (map nest l) <= depth) /\
  (forall depth prev s l r, dec_dict fuel depth prev s = Some (l, r) -> s = enc_dict l ++ r /\ Forall (fun kv => ordered (snd kv)) l /\
     Sorted lex (map fst l) /\ after prev l /\ list_max (map (fun kv => nest (snd kv)) l) <= depth).
Proof.
  induction fuel as [|fuel (IV & IL & ID)]; [repeat split; discriminate|]. split; [|split].
  - intros depth [|c t] v r H; [discriminate|]. cbn [dec_val] in H. destruct (Byte.eqb c x69) eqn:E1; [|destruct (Byte.eqb c x6c) eqn:E2; [|destruct (Byte.eqb c x64) eqn:E3]].
    + apply eqb_eq in E1. subst c. destruct (take_int t) as [[z q]|] eqn:T; [|discriminate]. injection H as <- <-.
      split; [apply take_int_inv; auto|]. split; [constructor|cbn; lia].
    + apply eqb_eq in E2. subst c. destruct depth as [|depth]; [discriminate|]. destruct (dec_list fuel depth t) as [[l q]|] eqn:T; [|discriminate].
      injection H as <- <-. apply IL in T. destruct T as (-> & T2 & T3). split; [reflexivity|]. split; [constructor; auto|cbn [nest]; lia].
    + apply eqb_eq in E3. subst c. destruct depth as [|depth]; [discriminate|]. destruct (dec_dict fuel depth None t) as [[l q]|] eqn:T; [|discriminate].
      injection H as <- <-. apply ID in T. destruct T as (-> & T2 & T3 & _ & T4). split; [reflexivity|]. split; [constructor; auto|cbn [nest]; lia].
    + destruct (take_str (c :: t)) as [[x q]|] eqn:T; [|discriminate]. injection H as <- <-. apply take_str_inv in T.
      split; [exact T|]. split; [constructor|cbn; lia].
  - intros depth [|c t] l r H; [discriminate|]. cbn [dec_list] in H. destruct (Byte.eqb c x65) eqn:E.
    + apply eqb_eq in E. subst c. injection H as <- <-. split; [reflexivity|]. split; [constructor|cbn; lia].
    + destruct (dec_val fuel depth (c :: t)) as [[v q]|] eqn:V; [|discriminate]. destruct (dec_list fuel depth q) as [[l' q']|] eqn:L; [|discriminate].
      injection H as <- <-. apply IV in V. apply IL in L. destruct V as (-> & V2 & V3), L as (-> & L2 & L3).
      split; [cbn [enc_list]; rewrite <- app_assoc; reflexivity|]. split; [constructor; auto|cbn [map]; rewrite list_max_cons; lia].
  - intros depth prev [|c t] l r H; [discriminate|]. cbn [dec_dict] in H. destruct (Byte.eqb c x65) eqn:E.
    + apply eqb_eq in E. subst c. injection H as <- <-. split; [reflexivity|]. split; [constructor|]. split; [constructor|]. split; [exact I|cbn; lia].
    + destruct (take_str (c :: t)) as [[k q]|] eqn:T; [|discriminate]. destruct (key_after prev k) eqn:K; [|discriminate].
      destruct (dec_val fuel depth q) as [[v q1]|] eqn:V; [|discriminate]. destruct (dec_dict fuel depth (Some k) q1) as [[l' q2]|] eqn:L; [|discriminate].
      injection H as <- <-. apply take_str_inv in T. apply IV in V. apply ID in L. destruct V as (-> & V2 & V3), L as (-> & L2 & L3 & L4 & L5). rewrite T.
      split; [cbn [enc_dict]; rewrite <- !app_assoc; reflexivity|]. split; [constructor; auto|]. split.
      { cbn [map fst]. constructor; auto. destruct l' as [|[k' v'] l']; cbn [map fst]; constructor. apply bytes_lt_lex. exact L4. }
      split; [exact K|]. cbn [map snd]. rewrite list_max_cons. lia.
Qed.
(** Fuel beyond twice the input never matters. *)
Lemma dec_fuel : forall depth s f g, 2 * length s <= f -> 2 * length s <= g -> dec_val f depth s = dec_val g depth s.
Proof.
  assert (G : forall depth s f g v r, 2 * length s <= g -> dec_val f depth s = Some (v, r) -> dec_val g depth s = Some (v, r)).
  { intros depth s f g v r L H. apply dec_inv in H. destruct H as (-> & O & D). rewrite app_length in L. apply dec_enc; auto; lia. }
  intros depth s f g F Gg. destruct (dec_val f depth s) as [[v r]|] eqn:E.
  - symmetry. eapply G; eauto.
  - destruct (dec_val g depth s) as [[v r]|] eqn:E'; auto. rewrite <- E. eapply G; eauto.
Qed.
Lemma decode_enc : forall depth v tl, ordered v -> nest v <= depth -> decode_at depth (enc v ++ tl) = Some (v, tl).
Proof. intros. unfold decode_at. apply dec_enc; auto. rewrite app_length. lia. Qed.
Lemma decode_inv : forall depth s v tl, decode_at depth s = Some (v, tl) -> s = enc v ++ tl /\ ordered v /\ nest v <= depth.
Proof. intros. unfold decode_at in *. eapply dec_inv. eauto. Qed.
