(** Model of the DHT routing table (/repo/src/dht/routing_table/bucket.rs and
    table.rs). Instants are nanoseconds; [now] is passed to each operation that
    reads the clock. *)
From Coq Require Import List NArith ZArith Lia Bool Arith.
From Coq Require Import Init.Byte.
From Verif Require Import Base IdModel WireModel.
Import ListNotations.
Set Implicit Arguments.

(** routing_table/mod.rs:10 *)
Definition K_NODE_PER_BUCKET : nat := 8.
(** bucket.rs:12, in nanoseconds *)
Definition NODE_VALIDITY : N := 900000000000.

(** bucket.rs:20-26 *)
Record node := mk_node { n_id : ID; n_addr : addr; n_seen : option N }.
(** bucket.rs:14-18; the array length is the side condition of [wf_bucket]. *)
Record bucket := mk_bucket { b_depth : nat; b_data : list (option node) }.

(** ** bucket.rs *)
(** bucket.rs:169-175 *)
Definition new_good (now : N) (id : ID) (a : addr) : node := mk_node id a (Some now).
(** bucket.rs:195-197 *)
Definition touch (now : N) (n : node) : node := mk_node (n_id n) (n_addr n) (Some now).
(** bucket.rs:210-219; [Instant::elapsed] saturates at zero. *)
Definition good (now : N) (n : node) : bool :=
  match n_seen n with Some t => (now - t <? NODE_VALIDITY)%N | None => false end.
Definition good_slot (now : N) (s : option node) : bool :=
  match s with Some n => good now n | None => false end.
(** bucket.rs:221-223 *)
Definition slot_has (id : ID) (s : option node) : bool :=
  match s with Some n => id_eqb (n_id n) id | None => false end.
(** bucket.rs:41-46 *)
Definition b_new (depth : nat) : bucket := mk_bucket depth (repeat None K_NODE_PER_BUCKET).
(** bucket.rs:48-53 *)
Definition get_node (b : bucket) (id : ID) : option node :=
  match find (slot_has id) (b_data b) with Some s => s | None => None end.
(** bucket.rs:55-60, 195-197: the first node with the id is touched in place. *)
Fixpoint touch_first (now : N) (id : ID) (l : list (option node)) : list (option node) :=
  match l with
  | [] => []
  | s :: t => if slot_has id s then option_map (touch now) s :: t else s :: touch_first now id t
  end.
(** [Iterator::position] *)
Fixpoint position {A} (p : A -> bool) (l : list A) : option nat :=
  match l with
  | [] => None
  | x :: t => if p x then Some 0 else option_map S (position p t)
  end.
Definition vacant (s : option node) : bool := match s with None => true | Some _ => false end.
(** bucket.rs:129-143 *)
Definition replaceable_idx (now : N) (b : bucket) : option nat :=
  match position vacant (b_data b) with
  | Some i => Some i
  | None => position (fun s => negb (good_slot now s)) (b_data b)
  end.
(** bucket.rs:101-103 *)
Definition is_full (now : N) (b : bucket) : bool :=
  match replaceable_idx now b with None => true | Some _ => false end.
(** bucket.rs:62-75 *)
Definition b_try_insert (now : N) (id : ID) (a : addr) (b : bucket) : res bucket :=
  match get_node b id with
  | Some _ => Val (mk_bucket (b_depth b) (touch_first now id (b_data b)))
  | None =>
    match replaceable_idx now b with
    | None => Fail
    | Some i => Val (mk_bucket (b_depth b) (upd (b_data b) i (Some (new_good now id a))))
    end
  end.
(** bucket.rs:105-107: [iter().flatten()] *)
Definition flatten (l : list (option node)) : list node :=
  flat_map (fun s => match s with Some n => [n] | None => [] end) l.
(** bucket.rs:109-111 *)
Definition iter_nodes (b : bucket) : list node := flatten (b_data b).
(** bucket.rs:113-115 *)
Definition iter_over_goods (now : N) (b : bucket) : list node := filter (good now) (iter_nodes b).
(** [array[i] = x] *)
Definition put {A} (l : list A) (i : nat) (x : A) : res (list A) :=
  if i <? length l then Val (upd l i x) else Panic.
(** bucket.rs:84-92 *)
Fixpoint split_loop (depth : nat) (ns : list node) (zero one : list (option node)) (l r : nat)
  : res (list (option node) * list (option node)) :=
  match ns with
  | [] => Val (zero, one)
  | n :: t =>
    match get_bit (n_id n) depth with
    | Val true => rbind (put one r (Some n)) (fun one' => split_loop depth t zero one' l (S r))
    | Val false => rbind (put zero l (Some n)) (fun zero' => split_loop depth t zero' one (S l) r)
    | _ => Panic
    end
  end.
(** bucket.rs:77-95: (zero, one) *)
Definition b_split (b : bucket) : res (bucket * bucket) :=
  rbind (split_loop (b_depth b) (iter_nodes b) (repeat None K_NODE_PER_BUCKET) (repeat None K_NODE_PER_BUCKET) 0 0)
    (fun zo => Val (mk_bucket (S (b_depth b)) (fst zo), mk_bucket (S (b_depth b)) (snd zo))).
(** bucket.rs:117-122 *)
Definition id_within_bucket_range (b : bucket) (own id : ID) : bool :=
  match first_diff_bit_idx own id with
  | None => true
  | Some k => b_depth b <? k
  end.
(** bucket.rs:203-208 *)
Definition cmp_by_distance (id : ID) (a b : node) : comparison := id_cmp (id_sub (n_id a) id) (id_sub (n_id b) id).
(** bucket.rs:177-193 *)
Definition node_from_compact (buf : bytes) : res node :=
  if length buf =? ID_LEN + 6 then
    rbind (socketaddr_from_compact_bytes (skipn ID_LEN buf)) (fun a => Val (mk_node (firstn ID_LEN buf) a None))
  else Fail.

(** ** table.rs *)
(** table.rs:18-22 *)
Record table := mk_table { t_own : ID; t_data : list bucket }.
(** table.rs:246-254, for the drawn own id *)
Definition t_default (own : ID) : table := mk_table own [b_new 0].
(** table.rs:185-197 *)
Definition find_bucket_idx (t : table) (id : ID) : res nat :=
  match t_data t with
  | [] => Panic
  | _ =>
    match first_diff_bit_idx (t_own t) id with
    | None => Val (length (t_data t) - 1)
    | Some k => if length (t_data t) <=? k then Val (length (t_data t) - 1) else Val k
    end
  end.
(** table.rs:173-177 *)
Definition get_bucket (t : table) (id : ID) : res bucket :=
  rbind (find_bucket_idx t id) (fun i => match nth_error (t_data t) i with Some b => Val b | None => Panic end).
(** table.rs:221-223 *)
Definition t_try_insert (now : N) (id : ID) (a : addr) (t : table) : res table :=
  rbind (find_bucket_idx t id) (fun i =>
    match nth_error (t_data t) i with
    | None => Panic
    | Some b => rbind (b_try_insert now id a b) (fun b' => Val (mk_table (t_own t) (upd (t_data t) i b')))
    end).
(** table.rs:225-230 *)
Definition id_within_splittable (t : table) (id : ID) : res bool :=
  match rev (t_data t) with
  | [] => Panic
  | b :: _ => Val (id_within_bucket_range b (t_own t) id)
  end.
(** table.rs:217-219 *)
Definition MAX_BUCKETS : nat := 161.
Definition max_depth_reached (t : table) : bool := length (t_data t) =? MAX_BUCKETS.
(** table.rs:232-243 *)
Definition t_split (t : table) : res table :=
  match rev (t_data t) with
  | [] => Panic
  | b :: _ =>
    rbind (b_split b) (fun zo =>
    rbind (bit_based_order (t_own t) (b_depth b) (snd zo) (fst zo)) (fun oo =>
      Val (mk_table (t_own t) (removelast (t_data t) ++ [snd oo; fst oo]))))
  end.
(** table.rs:199-215; the recursion is bounded by [fuel], running out of it
    counts as an abort. *)
Fixpoint insert_new_good (fuel : nat) (now : N) (id : ID) (a : addr) (t : table) : res table :=
  match fuel with
  | O => Panic
  | S fuel =>
    match t_try_insert now id a t with
    | Val t' => Val t'
    | Panic => Panic
    | Fail =>
      rbind (id_within_splittable t id) (fun w =>
        if negb w then Val t
        else if max_depth_reached t then Val t
        else rbind (t_split t) (fun t' => insert_new_good fuel now id a t'))
    end
  end.
(** table.rs:120-128 *)
Definition touch_node (now : N) (id : ID) (a : addr) (t : table) : res table :=
  rbind (find_bucket_idx t id) (fun i =>
    match nth_error (t_data t) i with
    | None => Panic
    | Some b =>
      match get_node b id with
      | Some _ => Val (mk_table (t_own t) (upd (t_data t) i (mk_bucket (b_depth b) (touch_first now id (b_data b)))))
      | None => insert_new_good (S MAX_BUCKETS) now id a t
      end
    end).
(** table.rs:69-71 *)
Definition t_nodes (t : table) : list node := flat_map iter_nodes (t_data t).
(** table.rs:73-78 *)
Definition count_good_nodes (now : N) (t : table) : nat :=
  list_sum (map (fun b => length (iter_over_goods now b)) (t_data t)).
(** table.rs:130-132 *)
Definition contains_node (t : table) (id : ID) : res bool :=
  rmap (fun b => match get_node b id with Some _ => true | None => false end) (get_bucket t id).

(** [slice::sort_by], a stable sort *)
Section sort.
  Variables (A : Type) (cmp : A -> A -> comparison).
  Fixpoint sort_ins (x : A) (l : list A) : list A :=
    match l with
    | [] => [x]
    | y :: t => match cmp x y with Gt => y :: sort_ins x t | _ => x :: l end
    end.
  Fixpoint sort_by (l : list A) : list A :=
    match l with [] => [] | x :: t => sort_ins x (sort_by t) end.
End sort.

(** table.rs:143-152: whole buckets until there are enough nodes *)
Fixpoint collect (now : N) (bs : list bucket) (acc : list node) : list node :=
  match bs with
  | [] => acc
  | b :: t =>
    let acc := acc ++ iter_over_goods now b in
    if K_NODE_PER_BUCKET <=? length acc then acc else collect now t acc
  end.
(** table.rs:138-171 *)
Definition get_closest_nodes (now : N) (t : table) (id : ID) : res (option (list node)) :=
  rbind (find_bucket_idx t id) (fun i =>
    let ns := collect now (skipn i (t_data t) ++ rev (firstn i (t_data t))) [] in
    Val (match ns with [] => None | _ => Some (sort_by (cmp_by_distance id) ns) end)).
(** krpc_message.rs [Nodes] *)
Inductive nodes := Exact (n : node) | Closest (l : list node).
(** table.rs:88-96 *)
Definition find_node (now : N) (t : table) (id : ID) : res (option nodes) :=
  rbind (get_bucket t id) (fun b =>
    match get_node b id with
    | Some n => Val (Some (Exact n))
    | None => rmap (option_map Closest) (get_closest_nodes now t id)
    end).

(** table.rs:99-111, one bucket; the draws are those made for this bucket. *)
Definition refresh_id (own : ID) (b : bucket) (draws : list byte * list bool) : res ID :=
  match b_depth b with
  | O => Panic
  | S d => rbind (flip_bit own d) (fun i => randomize_after_bit i d (fst draws) (snd draws))
  end.
Fixpoint refresh_ids (now : N) (own : ID) (bs : list bucket) (draws : list (list byte * list bool)) : res (list ID) :=
  match bs, draws with
  | [], _ => Val []
  | b :: t, [] => Fail
  | b :: t, d :: ds =>
    if is_full now b then refresh_ids now own t ds
    else rbind (refresh_id own b d) (fun i => rmap (cons i) (refresh_ids now own t ds))
  end.
(** table.rs:98-118; [draws] has one entry per bucket. *)
Definition iter_over_ids (now : N) (t : table) (draws : list (list byte * list bool)) : res (list ID) :=
  match rev (t_data t) with
  | [] => Panic
  | lastb :: _ =>
    rmap (fun l => l ++ (if (length (t_data t) <=? ID_BIT_COUNT) || is_full now lastb then [t_own t] else []))
      (refresh_ids now (t_own t) (removelast (t_data t)) draws)
  end.

(** ** persistence (table.rs:35-63): bincode with fixed-size little-endian
    integers, the layout of [bincode::serialize]; bincode itself is trusted. *)
Definition enc_u64 (n : nat) : bytes := le_bytes 8 (N.of_nat n).
Definition enc_id (i : ID) : bytes := enc_u64 (length i) ++ i.
(** [SocketAddrV4] in a binary format: four octets, then the port. *)
Definition enc_addr (a : addr) : bytes := addr_octets a ++ le_bytes 2 (port a).
(** bucket.rs:24-25: [last_seen] is skipped. *)
Definition enc_slot (s : option node) : bytes :=
  match s with None => [x00] | Some n => x01 :: enc_id (n_id n) ++ enc_addr (n_addr n) end.
Definition enc_bucket (b : bucket) : bytes := enc_u64 (b_depth b) ++ flat_map enc_slot (b_data b).
(** table.rs:57 *)
Definition enc_table (t : table) : bytes :=
  enc_id (t_own t) ++ enc_u64 (length (t_data t)) ++ flat_map enc_bucket (t_data t).

(** Decoders return the rest of the input. *)
Definition dec (A : Type) := bytes -> res (A * bytes).
Definition dbind {A B} (p : dec A) (f : A -> dec B) : dec B :=
  fun s => rbind (p s) (fun r => f (fst r) (snd r)).
Definition dret {A} (x : A) : dec A := fun s => Val (x, s).
Definition dec_take (n : nat) : dec bytes :=
  fun s => if length s <? n then Fail else Val (firstn n s, skipn n s).
Definition dec_u64 : dec nat := dbind (dec_take 8) (fun b => dret (N.to_nat (of_le b))).
(** [deserialize_byte_buf] and id.rs:171-193: a wrong length panics, but only
    when that many bytes are present. *)
Definition dec_id : dec ID :=
  dbind (dec_take 8) (fun b s =>
    if (N.of_nat (length s) <? of_le b)%N then Fail
    else dbind (dec_take (N.to_nat (of_le b))) (fun v s' => rmap (fun i => (i, s')) (id_deserialize v)) s).
Definition dec_addr : dec addr :=
  dbind (dec_take 4) (fun ip => dbind (dec_take 2) (fun p s =>
    match ip with
    | [a; b; c; d] => Val (mk_addr a b c d (of_le p), s)
    | _ => Fail
    end)).
Definition dec_slot : dec (option node) :=
  dbind (dec_take 1) (fun tag =>
    match tag with
    | [x00] => dret None
    | [x01] => dbind dec_id (fun i => dbind dec_addr (fun a => dret (Some (mk_node i a None))))
    | _ => fun _ => Fail
    end).
Fixpoint dec_seq {A} (p : dec A) (n : nat) : dec (list A) :=
  match n with
  | O => dret []
  | S n => dbind p (fun x => dbind (dec_seq p n) (fun l => dret (x :: l)))
  end.
Definition dec_bucket : dec bucket :=
  dbind dec_u64 (fun d => dbind (dec_seq dec_slot K_NODE_PER_BUCKET) (fun l => dret (mk_bucket d l))).
(** A bucket takes at least one byte, so a sequence that claims to be longer
    than the rest of the input runs out of input within [S (length s)] steps. *)
Definition dec_buckets : dec (list bucket) :=
  dbind (dec_take 8) (fun b s =>
    dec_seq dec_bucket (if (N.of_nat (length s) <? of_le b)%N then S (length s) else N.to_nat (of_le b)) s).
(** table.rs:35-46: bytes after the table are ignored. *)
Definition load_table (s : bytes) : res table :=
  rmap fst (dbind dec_id (fun o => dbind dec_buckets (fun l => dret (mk_table o l))) s).
