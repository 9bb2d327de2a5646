(** What a decoded datagram must look like to abort the DHT task. *)
From Coq Require Import Strings.String.
From Coq Require Import List NArith ZArith.
From Coq Require Import Init.Byte.
From Verif Require Import Base IdModel WireModel BencodeModel KrpcModel Utf8Spec.
Import ListNotations.
Set Implicit Arguments.

(** The entry is a string that is not 20 bytes long. *)
Definition misfit (d : list (bytes * bval)) (k : string) : Prop := exists x, lookup (str k) d = Some (BStr x) /\ List.length x <> 20.
(** The entry is a string of 20 bytes. *)
Definition fits (d : list (bytes * bval)) (k : string) : Prop := exists x, lookup (str k) d = Some (BStr x) /\ List.length x = 20.
(** The arguments are those of a complete announcement. *)
Definition announcement (a : list (bytes * bval)) : Prop :=
  fits a "id" /\ fits a "info_hash" /\ (exists z, lookup (str "port") a = Some (BInt z) /\ (0 <= z <= 65535)%Z) /\
  exists t, lookup (str "token") a = Some (BStr t).
(** Deadly arguments of a query: an identifier that does not fit. The other two
    are looked at only if [id] is a fitting string or missing, [target] only if
    the query is not a complete announcement. *)
Definition deadly_args (a : list (bytes * bval)) : Prop :=
  misfit a "id" \/
  ((fits a "id" \/ lookup (str "id") a = None) /\ (misfit a "info_hash" \/ (misfit a "target" /\ ~ announcement a))).
(** A query that is understood. *)
Definition understood (d : list (bytes * bval)) : Prop :=
  exists a q t y, lookup (str "a") d = Some (BDict a) /\ fits a "id" /\ ~ deadly_args a /\
    lookup (str "q") d = Some (BStr q) /\ utf8 q /\ lookup (str "t") d = Some (BStr t) /\
    lookup (str "y") d = Some (BStr (str y)) /\ In y ["q"; "r"; "e"]%string.
(** Deadly messages: as a query, or as a response if they are no query. *)
Definition deadly (v : bval) : Prop := exists d, v = BDict d /\
  ((exists a, lookup (str "a") d = Some (BDict a) /\ deadly_args a) \/
   (exists r, lookup (str "r") d = Some (BDict r) /\ misfit r "id" /\ ~ understood d)).
