(** Model of /repo/src/shutdown.rs: the shutdown signal and waiting for the tasks
    that listen to it. The two tokio channels are modelled by what this file uses
    of them: [broadcast] (capacity 1) and [mpsc], whose receiver ends when no
    sender is left. Receivers are named 0, 1, 2, ... in order of creation. *)
From Coq Require Import List Lia Bool Arith.
From Verif Require Import Base Assoc.
Import ListNotations.
Set Implicit Arguments.

(** tokio [broadcast]: number of messages ever sent, number of senders. *)
Record bcast := mk_bcast { b_tail : nat; b_senders : nat }.
Definition BROADCAST_CAP : nat := 1.
(** [Sender::subscribe]: the next message is the first to be received. *)
Definition subscribe (b : bcast) : nat := b_tail b.
(** [Sender::send]: an error without receivers, and then nothing is stored. *)
Definition bcast_send (b : bcast) (receivers : nat) : bcast :=
  match receivers with 0 => b | _ => mk_bcast (S (b_tail b)) (b_senders b) end.
Definition bcast_add (b : bcast) : bcast := mk_bcast (b_tail b) (S (b_senders b)).
Definition bcast_sub (b : bcast) : bcast := mk_bcast (b_tail b) (pred (b_senders b)).
(** [Receiver::recv().await.unwrap()] of a receiver whose next message is number
    [next]: [None] while it waits; lagging behind and a closed channel are errors,
    hence panics. *)
Definition bcast_recv (b : bcast) (next : nat) : option (res nat) :=
  if next + BROADCAST_CAP <? b_tail b then Some Panic
  else if next <? b_tail b then Some (Val (S next))
  else if b_senders b =? 0 then Some Panic
  else None.

(** The state of one [channel()]: the broadcast channel, the [mpsc] senders alive
    (the alive markers), whether the [Sender] and the [AliveTaskWaiter] taken out
    of it exist, and for each [Receiver] its position (shutdown.rs:16, 24-27,
    40-45). *)
Record sd := mk_sd { sd_b : bcast; sd_markers : nat; sd_sender : bool; sd_waiter : bool; sd_rx : list (nat * nat); sd_names : nat }.
Definition rget := @mget nat nat Nat.eqb.
Definition rset := @mset nat nat Nat.eqb.
Definition rdel := @mdel nat nat Nat.eqb.
(** shutdown.rs:3-13 *)
Definition sd_channel : sd :=
  let b := mk_bcast 0 1 in
  let s := bcast_add b in
  mk_sd s 1 true false [(0, subscribe s)] 1.
Inductive sd_event :=
| Send                   (* shutdown.rs:34-37 *)
| DropSender             (* the sender goes out of scope unused *)
| Clone (r : nat)        (* shutdown.rs:61-69 *)
| Drop (r : nat)         (* the task holding receiver r ends *)
| Recv (r : nat)         (* shutdown.rs:56-58 returns *)
| Waited                 (* shutdown.rs:19-21 returns *)
| DropWaiter.            (* the waiter goes out of scope *)
(** [None]: cannot happen now (or: would wait). *)
Definition sd_step (s : sd) (e : sd_event) : option (res sd) :=
  let '(mk_sd b m snd w rx n) := s in
  match e with
  | Send => if snd then Some (Val (mk_sd (bcast_sub (bcast_send b (length rx))) m false true rx n)) else None
  | DropSender => if snd then Some (Val (mk_sd (bcast_sub b) m false w rx n)) else None
  | Clone r => match rget r rx with Some _ => Some (Val (mk_sd (bcast_add b) (S m) snd w (rset n (subscribe b) rx) (S n))) | None => None end
  | Drop r => match rget r rx with Some _ => Some (Val (mk_sd (bcast_sub b) (pred m) snd w (rdel r rx) n)) | None => None end
  | Recv r => match rget r rx with
      | Some next => match bcast_recv b next with
          | Some (Val next') => Some (Val (mk_sd b m snd w (rset r next' rx) n))
          | Some _ => Some Panic
          | None => None
          end
      | None => None
      end
  | Waited => if w && (m =? 0) then Some (Val (mk_sd b m snd false rx n)) else None
  | DropWaiter => if w then Some (Val (mk_sd b m snd false rx n)) else None
  end.
Fixpoint sd_run (s : sd) (es : list sd_event) : option (res sd) :=
  match es with
  | [] => Some (Val s)
  | e :: t => match sd_step s e with Some (Val s) => sd_run s t | o => o end
  end.
