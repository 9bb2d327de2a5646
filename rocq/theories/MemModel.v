(** The three places of /repo/src that reinterpret memory with [unsafe]: the bytes
    of the `pieces` field as identifiers (transcoding/metainfo.rs:379-396), the
    handshake as bytes (peers/connection/handshake.rs:33-58) and an identifier as
    five words (data_structures/id.rs:138-146). *)
From Coq Require Import List NArith ZArith Lia Bool Arith.
From Coq Require Import Init.Byte.
From Verif Require Import Base IdModel WireModel KrpcModel MetainfoModel.
Import ListNotations.
Set Implicit Arguments.

(** ** The heap *)
(** What was allocated: size and alignment asked for, and the bytes, [None] where
    nothing was written yet. *)
Record block := mk_block { k_size : nat; k_align : nat; k_cells : list (option byte) }.
(** Blocks by address; [None]: given back. Addresses are not used again, which
    makes every use after the end visible. *)
Definition heap := list (option block).
(** What the language leaves undefined is a result of its own. *)
Inductive mres A := Done (a : A) | Undefined.
Arguments Done {A}. Arguments Undefined {A}.
Definition mbind A B (x : mres A) (f : A -> mres B) : mres B := match x with Done a => f a | Undefined => Undefined end.
Definition alloc (h : heap) (size align : nat) (init : bytes) : heap * nat :=
  (h ++ [Some (mk_block size align (map Some init ++ repeat None (size - length init)))], length h).
Fixpoint initialised (l : list (option byte)) : mres bytes :=
  match l with
  | [] => Done []
  | Some b :: t => mbind (initialised t) (fun r => Done (b :: r))
  | None :: _ => Undefined
  end.
(** [n] bytes from offset [off] of a block. *)
Definition mem_read (h : heap) (p off n : nat) : mres bytes :=
  match nth_error h p with
  | Some (Some k) => if off + n <=? length (k_cells k) then initialised (firstn n (skipn off (k_cells k))) else Undefined
  | _ => Undefined
  end.
(** [GlobalAlloc::dealloc]: "layout must be the same layout that was used to
    allocate that block of memory". *)
Definition dealloc (h : heap) (p size align : nat) : mres heap :=
  match nth_error h p with
  | Some (Some k) => if (k_size k =? size) && (k_align k =? align) then Done (upd h p None) else Undefined
  | _ => Undefined
  end.

(** ** Vectors; their elements are [e] bytes long and need no alignment *)
Record vec := mk_vec { v_ptr : nat; v_len : nat; v_cap : nat }.
Definition vec_index (e : nat) (h : heap) (v : vec) (i : nat) : mres bytes := mem_read h (v_ptr v) (e * i) e.
Definition vec_drop (e : nat) (h : heap) (v : vec) : mres heap :=
  if e * v_cap v =? 0 then Done h else dealloc h (v_ptr v) (e * v_cap v) 1.
(** A vector of the bytes [raw] with room for [room] more. *)
Definition vec_of (h : heap) (raw : bytes) (room : nat) : heap * vec :=
  match length raw + room with
  | O => (h, mk_vec 0 0 0)
  | c => let (h', p) := alloc h c 1 raw in (h', mk_vec p (length raw) c)
  end.

(** ** transcoding/metainfo.rs:379-396 *)
(** An error drops the bytes; otherwise they are forgotten, and a vector of
    identifiers is made of the same memory. *)
Definition pieces_from_raw (h : heap) (raw : vec) : mres (heap * res vec) :=
  if (v_len raw =? 0) || negb (v_len raw mod ID_LEN =? 0) then mbind (vec_drop 1 h raw) (fun h' => Done (h', Fail))
  else Done (h, Val (mk_vec (v_ptr raw) (v_len raw / ID_LEN) (v_cap raw / ID_LEN))).
(** Reading all elements, in order. *)
Fixpoint read_all (h : heap) (v : vec) (is : list nat) : mres (list ID) :=
  match is with
  | [] => Done []
  | i :: t => mbind (vec_index ID_LEN h v i) (fun x => mbind (read_all h v t) (fun r => Done (x :: r)))
  end.
(** The life of a `pieces` field: its bytes are allocated, turned into
    identifiers, read, and dropped with the torrent. The only caller passes a
    vector made from a slice (metainfo.rs:322, bendy's [AsString]), which has no
    room to spare: [room] is 0 there. *)
Definition pieces_life (h : heap) (raw : bytes) (room : nat) : mres (heap * res (list ID)) :=
  let (h1, v) := vec_of h raw room in
  mbind (pieces_from_raw h1 v) (fun r =>
    match snd r with
    | Val w => mbind (read_all (fst r) w (seq 0 (v_len w))) (fun ids => mbind (vec_drop ID_LEN (fst r) w) (fun h2 => Done (h2, Val ids)))
    | Fail => Done (fst r, Fail)
    | Panic => Done (fst r, Panic)
    end).

(** ** [repr(C)], as the language reference has it *)
Record fld := mk_fld { f_align : nat; f_bytes : bytes }.
Definition round_up (n a : nat) : nat := (n + a - 1) / a * a.
(** Fields in order, each at the next multiple of its alignment; then the size is
    rounded up to the alignment of the whole. What lies between is not
    initialised. *)
Fixpoint place (cells : list (option byte)) (fs : list fld) : list (option byte) :=
  match fs with
  | [] => cells
  | f :: t => place (cells ++ repeat None (round_up (length cells) (f_align f) - length cells) ++ map Some (f_bytes f)) t
  end.
Definition struct_align (fs : list fld) : nat := fold_left (fun a f => Nat.max a (f_align f)) fs 1.
Definition struct_cells (fs : list fld) : list (option byte) :=
  let cells := place [] fs in cells ++ repeat None (round_up (length cells) (struct_align fs) - length cells).
(** handshake.rs:54-58: all [size_of] bytes of it. *)
Definition as_bytes (fs : list fld) : mres bytes := initialised (struct_cells fs).
(** handshake.rs:33-52; arrays of bytes need no alignment. *)
Definition handshake_fields (info_hash peer_id : ID) : list fld :=
  [mk_fld 1 [n2b PSTRLEN]; mk_fld 1 PSTR; mk_fld 1 [x00; x00; x00; x00; x00; x00; x00; x01]; mk_fld 1 info_hash; mk_fld 1 peer_id].

(** ** id.rs:138-146 on a machine of either byte order *)
Definition native_word (big : bool) (l : bytes) : N := of_le (if big then rev l else l).
Definition id_weight_on (big : bool) (id : ID) : res N :=
  let w k := hamming_weight (native_word big (firstn 4 (skipn (4 * k) id))) in
  rbind (w 0) (fun w0 => rbind (w 1) (fun w1 => rbind (u32_add w0 w1) (fun s1 =>
  rbind (w 2) (fun w2 => rbind (u32_add s1 w2) (fun s2 =>
  rbind (w 3) (fun w3 => rbind (u32_add s2 w3) (fun s3 =>
  rbind (w 4) (fun w4 => u32_add s3 w4)))))))).
