(** C86: what an accepted torrent file says about lengths and pieces, and that
    nothing more is checked. *)
From Coq Require Import Strings.String.
From Coq Require Import List NArith ZArith Lia Bool Arith Sorted Permutation.
From Coq Require Import Init.Byte.
From Verif Require Import Base IdModel WireModel BencodeModel BencodeSpec BencodeProofs BencodeProps KrpcModel Utf8Spec Utf8Proofs KrpcProofs TrackerModel TrackerSpec DictProofs MetainfoModel MetainfoSpec MetainfoProps.
Import ListNotations.
Set Implicit Arguments.

(** The part that holds: there is at least one piece, its hashes have 20 bytes,
    and they are all of the [pieces] string of the file. *)
Theorem C86_pieces_partial : forall sha1 s t, torrent_from_buf sha1 s = Val t ->
  0 < count_pieces t /\ Forall (fun h => List.length h = 20) (i_pieces (t_info t)) /\
  exists pre post, s = pre ++ enc_str (str "pieces") ++ enc_str (concat (i_pieces (t_info t))) ++ post.
Proof.
  intros sha1 s t H. destruct (C56_info_hash _ _ H) as (pre & raw & post & di & E & _ & R & (_ & _ & (NE & W & P) & _)).
  split; [|split].
  - unfold count_pieces. destruct (i_pieces (t_info t)); [congruence|cbn; lia].
  - exact W.
  - destruct (enc_dict_in _ _ _ P) as (a & b & F). subst raw. rewrite enc_BDict, F in E. 
    exists (pre ++ str "4:info" ++ x64 :: a). eexists. rewrite E. cbn [enc]. rewrite <- !app_assoc. cbn [app]. rewrite <- !app_assoc. cbn [app]. reflexivity.
Qed.
(** Any combination of total length, piece length and number of pieces is
    accepted. *)
Definition any_torrent (n plen : N) (hs : list ID) : list (bytes * bval) :=
  [(str "announce", BStr (str "http://t/a"));
   (str "info", BDict [(str "length", BInt (Z.of_N n)); (str "name", BStr (str "x")); (str "piece length", BInt (Z.of_N plen));
                       (str "pieces", BStr (concat hs))])].
Theorem C86_unchecked_always : forall sha1 n plen hs, (n < 2 ^ 64)%N -> (plen < 2 ^ 64)%N -> hs <> [] -> Forall wf_id hs ->
  exists s t, torrent_from_buf sha1 s = Val t /\ info_length (t_info t) = Val n /\ i_piece_length (t_info t) = plen /\ count_pieces t = List.length hs.
Proof.
  intros sha1 n plen hs Hn Hp NE W.
  set (i := mk_metainfo (str "x") plen hs (Single n)).
  set (d := any_torrent n plen hs).
  assert (SO : exists n0 p0 h0, ordered (BDict (any_torrent n0 p0 h0))).
  { exists 1%N, 1%N, [repeat x01 20].
    assert (D : decode_at TORRENT_DEPTH (enc (BDict (any_torrent 1 1 [repeat x01 20]))) = Some (BDict (any_torrent 1 1 [repeat x01 20]), [])) by (vm_compute; reflexivity).
    apply decode_inv in D. tauto. }
  assert (O : ordered (BDict d)).
  { destruct SO as (n0 & p0 & h0 & SO). inversion SO as [| | |l F1 S1]; subst. constructor; [|exact S1].
    inversion F1 as [|? ? _ F2]; subst. inversion F2 as [|? ? F3 _]; subst. cbn [snd] in F3. inversion F3 as [| | |l F4 S4]; subst.
    constructor; [constructor|]. constructor; [|constructor]. cbn [snd]. constructor; [|exact S4]. repeat constructor. }
  assert (UT : forall s, utf8_ok s = true -> utf8 s) by (intros; apply utf8_ok_iff; auto).
  assert (T : torrent_says sha1 d (mk_torrent i (sha1 (enc (snd (nth 1 d ([], BInt 0))))) [Http (str "http://t/a")])).
  { split; [|split].
    - eexists. split; [right; left; reflexivity|]. split; [|reflexivity]. cbn [t_info]. unfold info_says, i. cbn [i_name i_piece_length i_pieces i_mode].
      split; [split; [right; left; reflexivity|apply UT; reflexivity]|]. split; [split; [right; right; left; reflexivity|auto]|].
      split; [split; [auto|split; [auto|right; right; right; left; reflexivity]]|].
      split; [split; [left; reflexivity|auto]|]. left. unfold absent. cbn. intros [X|[X|[X|[X|[]]]]]; discriminate X.
    - split.
      + intros v [X|[X|[]]]; [injection X as <-|discriminate X]. eexists. split; [reflexivity|apply UT; reflexivity].
      + intros v [X|[X|[]]]; discriminate X.
    - cbn [t_announce]. split; [repeat constructor; intros []|]. split; [discriminate|]. intro x. split.
      + intros [<-|[]]. exists (str "http://t/a"). split; [left; left; reflexivity|]. split; [reflexivity|]. exists (str "://t/a"). reflexivity.
      + intros (u & [U|(ts & tr & U & _)] & K).
        * destruct U as [U|[U|[]]]; [injection U as <-|discriminate U]. destruct x as [x|x]; cbn in K; destruct K as (-> & r & R); [left; reflexivity|discriminate R].
        * destruct U as [U|[U|[]]]; discriminate U. }
  assert (N : nest (BDict d) <= TORRENT_DEPTH) by (cbn; unfold TORRENT_DEPTH; lia).
  destruct (C56_accepted [] O N T) as (l & E & _). exists (enc (BDict d) ++ []). eexists. split; [exact E|].
  cbn [t_info]. split; [apply (C56_length i)|]. split; reflexivity.
Qed.
Example C86_unchecked_example : forall sha1, exists s t, torrent_from_buf sha1 s = Val t /\ info_length (t_info t) = Val (2 ^ 60)%N /\
  i_piece_length (t_info t) = 0%N /\ count_pieces t = 3.
Proof. intro sha1. apply (@C86_unchecked_always sha1 (2 ^ 60) 0 (repeat (repeat x07 20) 3)); [reflexivity|reflexivity|discriminate|repeat constructor]. Qed.
Print Assumptions C86_pieces_partial.
Print Assumptions C86_unchecked_always.
