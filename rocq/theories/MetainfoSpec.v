(** Vocabulary for the torrent file properties: what a dictionary says, field by
    field (BEP 3, BEP 12). *)
From Coq Require Import Strings.String.
From Coq Require Import List NArith ZArith Lia Bool Arith.
From Coq Require Import Init.Byte.
From Verif Require Import Base IdModel BencodeModel KrpcModel Utf8Spec TrackerSpec MetainfoModel.
Import ListNotations.
Set Implicit Arguments.

(** A list of texts. *)
Definition texts (v : bval) (l : list bytes) : Prop := v = BList (map BStr l) /\ Forall utf8 l.
Definition file_says (d : list (bytes * bval)) (f : mfile) : Prop :=
  number d "length" (mf_length f) /\ exists v, In (str "path", v) d /\ texts v (mf_path f).
Definition files_say (d : list (bytes * bval)) (fs : list mfile) : Prop :=
  exists l, In (str "files", BList (map BDict l)) d /\ Forall2 file_says l fs.
(** A torrent that names both a length and files counts as a single file. *)
Definition mode_says (d : list (bytes * bval)) (m : fmode) : Prop :=
  match m with
  | Single n => number d "length" n /\ (absent d "files" \/ exists fs, files_say d fs)
  | Multi fs => absent d "length" /\ files_say d fs
  end.
(** The piece hashes are the 20-byte sections of one non-empty string. *)
Definition info_says (d : list (bytes * bval)) (i : metainfo) : Prop :=
  text d "name" (i_name i) /\ number d "piece length" (i_piece_length i) /\
  (i_pieces i <> [] /\ Forall wf_id (i_pieces i) /\ In (str "pieces", BStr (concat (i_pieces i))) d) /\
  mode_says d (i_mode i).
(** The URLs of a torrent: [announce], and all tiers of [announce-list]. *)
Definition url_of (d : list (bytes * bval)) (u : bytes) : Prop :=
  In (str "announce", BStr u) d \/
  exists tiers tier, In (str "announce-list", BList tiers) d /\ In (BList tier) tiers /\ In (BStr u) tier.
Definition urls_ok (d : list (bytes * bval)) : Prop :=
  (forall v, In (str "announce", v) d -> exists u, v = BStr u /\ utf8 u) /\
  (forall v, In (str "announce-list", v) d -> exists tiers, v = BList tiers /\ Forall (fun t => exists l, texts t l) tiers).
(** By scheme. *)
Definition kind (u : bytes) (t : tracker_addr) : Prop :=
  match t with
  | Udp x => x = u /\ exists rest, u = str "udp" ++ rest
  | Http x => x = u /\ exists rest, u = str "http" ++ rest
  end.
Definition trackers_say (d : list (bytes * bval)) (l : list tracker_addr) : Prop :=
  NoDup l /\ l <> [] /\ forall t, In t l <-> exists u, url_of d u /\ kind u t.
Definition torrent_says (sha1 : bytes -> ID) (d : list (bytes * bval)) (t : torrent) : Prop :=
  (exists di, In (str "info", BDict di) d /\ info_says di (t_info t) /\ t_info_hash t = sha1 (enc (BDict di))) /\
  urls_ok d /\ trackers_say d (t_announce t).
Definition total (l : list mfile) : N := fold_right (fun f n => (mf_length f + n)%N) 0%N l.
