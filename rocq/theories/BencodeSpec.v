(** Vocabulary for the bencode properties. *)
From Coq Require Import List NArith ZArith Lia Bool Arith Sorted.
From Verif Require Import Base BencodeModel.
Import ListNotations.
Set Implicit Arguments.

(** Lexicographic order of byte strings: a proper prefix comes first, otherwise
    the first difference decides. *)
Definition lex (a b : bytes) : Prop :=
  (exists x t, b = a ++ x :: t) \/
  (exists p x y s t, a = p ++ x :: s /\ b = p ++ y :: t /\ (b2n x < b2n y)%N).
(** Dictionary keys ascend (and so are distinct), at every level. *)
Inductive ordered : bval -> Prop :=
| o_int : forall z, ordered (BInt z)
| o_str : forall s, ordered (BStr s)
| o_list : forall l, Forall ordered l -> ordered (BList l)
| o_dict : forall l, Forall (fun kv => ordered (snd kv)) l -> Sorted lex (map fst l) -> ordered (BDict l).
(** Nesting depth. *)
Fixpoint nest (v : bval) : nat :=
  match v with
  | BInt _ | BStr _ => 0
  | BList l => S (list_max (map nest l))
  | BDict l => S (list_max (map (fun kv => nest (snd kv)) l))
  end.
