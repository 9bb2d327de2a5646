(** Vocabulary for the properties of the torrent manager. *)
From Coq Require Import List NArith ZArith Lia Bool Arith Permutation.
From Verif Require Import Base Assoc BitSpec BitmapModel BitmapProofs IdModel WireModel PeersModel PeersSpec ManagerModel.
Import ListNotations.
Set Implicit Arguments.

(** Piece [i] is set in a bitmap of [n] pieces. *)
Definition piece_in (b : bitmap) (i : nat) : Prop := nth_error (bits b) i = Some true.
Definition piece_inb (b : bitmap) (i : nat) : bool :=
  match nth_error (bits b) i with Some v => v | None => false end.
(** Number of active peers that have announced piece [i]. *)
Definition holders (a : list (addr * pinfo)) (i : nat) : nat :=
  length (filter (fun x => piece_inb (pi_haves (snd x)) i) a).

(** The whole system: manager and the table of peers it shares with the
    trackers and the DHT, which may use the table at any time. *)
Inductive mevent := EMsg (p : addr) (c : con_message) | ERefresh | EAssign (sent : nat -> bool) | ETable (o : qop).
Definition sys := (mgr * peers)%type.
Definition sys_step (s : sys) (e : mevent) : res (sys * list mout) :=
  match e with
  | EMsg p c => rmap (fun m => ((m, snd s), [])) (handle_message (fst s) p c)
  | ERefresh => rmap (fun r => ((fst (fst r), snd (fst r)), snd r)) (m_refresh (fst s) (snd s))
  | EAssign f => rmap (fun r => ((fst r, snd s), snd r)) (m_assign (fst s) f)
  | ETable o => rmap (fun r => ((fst s, fst r), [])) (q_step (snd s) o)
  end.
(** Hash maps may be traversed in a different order at every step. *)
Definition sys_perm (s s' : sys) : Prop :=
  exists a t, Permutation (m_active (fst s)) a /\ Permutation (snd s) t /\ s' = (with_active (fst s) a, t).
Inductive sys_run : sys -> list (mevent * list mout) -> sys -> Prop :=
| sr_nil : forall s, sys_run s [] s
| sr_cons : forall s s1 e s2 out h s', sys_perm s s1 -> sys_step s1 e = Val (s2, out) -> sys_run s2 h s' ->
    sys_run s ((e, out) :: h) s'.
(** Start of the program: no peers, no pieces. *)
Definition sys_start (hashes : list ID) (s : sys) : Prop := exists m, m_init hashes = Val m /\ s = (m, []).
Definition sys_reach (hashes : list ID) (s : sys) : Prop := exists s0 h, sys_start hashes s0 /\ sys_run s0 h s.

(** Histories in which nobody re-announces a peer while it is active. *)
Inductive calm_run : sys -> list (mevent * list mout) -> sys -> Prop :=
| cr_nil : forall s, calm_run s [] s
| cr_cons : forall s s1 e s2 out h s', sys_perm s s1 ->
    (forall o p, e = ETable o -> In p (names o) -> ~ In p (map fst (m_active (fst s1)))) ->
    sys_step s1 e = Val (s2, out) -> calm_run s2 h s' ->
    calm_run s ((e, out) :: h) s'.
Lemma calm_is_run : forall s h s', calm_run s h s' -> sys_run s h s'.
Proof. induction 1; econstructor; eauto. Qed.
