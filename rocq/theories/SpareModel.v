(** Functions of /repo/src that the program does not call
    ([Torrent::_is_valid_piece], [Bucket::_count_bads], [Bucket::_count_empty]),
    and the opening of ports, gateway_device.rs. *)
From Coq Require Import List NArith ZArith Lia Bool Arith.
From Coq Require Import Init.Byte.
From Verif Require Import Base IdModel WireModel TableModel MetainfoModel PendingModel.
Import ListNotations.
Set Implicit Arguments.

(** metainfo.rs:64-68 with macros.rs:1-6. [checked] as in PendingModel.v: the
    subtraction of 1 from a piece length of 0 panics in a debug build and wraps
    otherwise. [&&] stops at the first false; the index is looked up last. *)
Definition is_valid_piece (sha1 : bytes -> ID) (checked : bool) (i : metainfo) (idx : nat) (data : list bytes) : res bool :=
  rbind (usize_dec checked (i_piece_length i)) (fun m =>
  if negb (N.of_nat (length data) =? 1 + m / N.of_nat BLOCK_SIZE)%N then Val false
  else if negb (forallb (fun b => length b =? BLOCK_SIZE) data) then Val false
  else match nth_error (i_pieces i) idx with
       | None => Panic
       | Some h => Val (id_eqb h (blocks_hash sha1 data))
       end).

(** bucket.rs:145-159 *)
Definition bad_slot (now : N) (s : option node) : bool :=
  match s with
  | Some n => match n_seen n with Some t => (NODE_VALIDITY <? now - t)%N | None => false end
  | None => false
  end.
Definition count_bads (now : N) (b : bucket) : nat :=
  fold_left (fun acc x => if bad_slot now x then acc + 1 else acc) (b_data b) 0.
(** bucket.rs:161-165 *)
Definition count_empty (b : bucket) : nat :=
  fold_left (fun acc x => match x with None => acc + 1 | Some _ => acc end) (b_data b) 0.

(** gateway_device.rs:6-7 *)
Definition LOCAL_PORT_TCP : N := 46492.
Definition LOCAL_PORT_UDP : N := 46493.
(** Ports opened on the router: protocol, port outside, port inside, and the
    time at which the router closes it again, if ever. *)
Inductive proto := TCP | UDP.
Record mapping := mk_mapping { mp_proto : proto; mp_outside : N; mp_inside : N; mp_until : option N }.
(** A request for any port with a lease in seconds; 0 is no limit (igd,
    [Gateway::add_any_port]). What the router grants is up to it. *)
Definition add_any_port (grant : option N) (now : N) (p : proto) (inside lease : N) (open : list mapping) : option (N * list mapping) :=
  match grant with
  | None => None
  | Some out => Some (out, mk_mapping p out inside (if (lease =? 0)%N then None else Some (now + lease)%N) :: open)
  end.
(** What is found: our own address (an IPv6 one is refused), a router, and what
    it grants. *)
Record surroundings := mk_sur { g_local_v4 : option bool; g_found : bool; g_tcp : option N; g_udp : option N }.
(** gateway_device.rs:9-33, on the ports that are open: the two ports given, or
    an error, and the ports open afterwards. *)
Definition open_any_port (g : surroundings) (now : N) (open : list mapping) : option (N * N) * list mapping :=
  match g_local_v4 g with
  | Some true =>
    if g_found g then
      match add_any_port (g_tcp g) now TCP LOCAL_PORT_TCP 0 open with
      | None => (None, open)
      | Some (tcp, open1) =>
        match add_any_port (g_udp g) now UDP LOCAL_PORT_UDP 0 open1 with
        | None => (None, open1)
        | Some (udp, open2) => (Some (tcp, udp), open2)
        end
      end
    else (None, open)
  | _ => (None, open)
  end.
(** The router as time goes by: leases run out. The client makes no other
    request to it (gateway_device.rs is all that uses igd), while it runs or
    when it ends. *)
Definition open_at (now : N) (open : list mapping) : list mapping :=
  filter (fun m => match mp_until m with None => true | Some t => (now <? t)%N end) open.
