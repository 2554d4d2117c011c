(** Model of a connection between two nodes once the handshake is done: node_remote.rs:100-134
    (node_remote_sender), :136-151 (node_remote_receiver up to what it does with a frame) and :278-319
    (node_remote_supervisor), on both ends, with the socket between them.  No proofs in this file.

    Time is in milliseconds.  The socket is a pair of byte pipes: what is written comes out in the same
    order, in chunks of any size, and may stop coming at any moment.  What the receiver does with a
    frame other than a heartbeat is NodeApi.receive_frame; here it is only "handled".  Simplifications:
    a write takes no time (how long it may block is part of the delays the theorems assume); the
    three processes of one end stop one by one in any order (the links between them are in World.v). *)
From stdpp Require Import base list gmap numbers strings countable.
From Verif Require Import Types Codec Options.

(** The two ends. *)
Inductive who := A | B.
Definition peer (w : who) : who := match w with A => B | B => A end.

(** node_remote.rs:59-65 NodeRemoteSenderMessage. *)
Inductive smsg := SendFrame (f : frame) | SendFrames (fs : list frame).
Definition frames_of (m : smsg) : list frame := match m with SendFrame f => [f] | SendFrames fs => fs end.

(** One end: the sender's mailbox (with arrival times) and when its current wait began (:104-106), the
    SendPong messages in the supervisor's mailbox, the receiver's buffer and when its current wait
    began (:140), which of the three still run, and the bytes it has written that its peer has not
    read. *)
Record side := Side {
  sd_queue : list (N * smsg); sd_since : N; sd_pongs : nat; sd_buf : bytes; sd_heard : N;
  sd_sending : bool; sd_receiving : bool; sd_supervising : bool; sd_out : bytes }.
Record state := State { now : N; st_a : side; st_b : side }.
Definition get (w : who) (s : state) : side := match w with A => st_a s | B => st_b s end.
Definition put (w : who) (x : side) (s : state) : state :=
  match w with A => State (now s) x (st_b s) | B => State (now s) (st_a s) x end.
Definition at_time (t : N) (s : state) : state := State t (st_a s) (st_b s).

(** The sender has taken [m] or given up waiting, and written [bs] (:108-132). *)
Definition sent (t : N) (q : list (N * smsg)) (bs : bytes) (ok : bool) (x : side) : side :=
  Side q t (sd_pongs x) (sd_buf x) (sd_heard x) ok (sd_receiving x) (sd_supervising x) (sd_out x ++ bs).
Definition queued (q : N * smsg) (x : side) : side :=
  Side (sd_queue x ++ [q]) (sd_since x) (sd_pongs x) (sd_buf x) (sd_heard x) (sd_sending x) (sd_receiving x) (sd_supervising x) (sd_out x).
Definition read_bytes (c : bytes) (x : side) : side :=
  Side (sd_queue x) (sd_since x) (sd_pongs x) (sd_buf x ++ c) (sd_heard x) (sd_sending x) (sd_receiving x) (sd_supervising x) (sd_out x).
Definition out_left (c : bytes) (x : side) : side :=
  Side (sd_queue x) (sd_since x) (sd_pongs x) (sd_buf x) (sd_heard x) (sd_sending x) (sd_receiving x) (sd_supervising x) c.
(** :140-151: a frame was decoded; a ping makes the receiver send SendPong to the supervisor. *)
Definition heard (t : N) (buf : bytes) (f : frame) (ok : bool) (x : side) : side :=
  Side (sd_queue x) (sd_since x)
    (match f with FPing => if sd_supervising x then Datatypes.S (sd_pongs x) else sd_pongs x | _ => sd_pongs x end)
    buf t (sd_sending x) ok (sd_supervising x) (sd_out x).
Definition deaf (x : side) : side :=
  Side (sd_queue x) (sd_since x) (sd_pongs x) (sd_buf x) (sd_heard x) (sd_sending x) false (sd_supervising x) (sd_out x).
Definition ponged (n : nat) (x : side) : side :=
  Side (sd_queue x) (sd_since x) n (sd_buf x) (sd_heard x) (sd_sending x) (sd_receiving x) (sd_supervising x) (sd_out x).
Definition mute (x : side) : side :=
  Side (sd_queue x) (sd_since x) (sd_pongs x) (sd_buf x) (sd_heard x) false (sd_receiving x) (sd_supervising x) (sd_out x).
Definition unsupervised (x : side) : side :=
  Side (sd_queue x) (sd_since x) (sd_pongs x) (sd_buf x) (sd_heard x) (sd_sending x) (sd_receiving x) false (sd_out x).

(** What can be seen of a connection. *)
Inductive event :=
| Handed (w : who) (f : frame)              (* node_send_frame gave [f] to the sender of [w] *)
| Wrote (w : who) (fs : list frame)         (* the sender of [w] wrote [fs] *)
| WriteFailed (w : who) (fs : list frame)   (* it tried to and panicked *)
| Handled (w : who) (f : frame)             (* the receiver of [w] got [f] *)
| TimedOut (w : who)                        (* "Remote node timed out!" *)
| Broken (w : who)                          (* end of stream, IO error or malformed frame *)
| Stopped (w : who)                         (* one of the processes of [w] was told to exit *)
| Inside.                                   (* nothing to see *)

(** node_send_frame (node_registry.rs:163-182) never hands over a heartbeat. *)
Definition heartbeat (f : frame) : bool := match f with FPing | FPong => true | _ => false end.

(** The bytes of some frames (frame/mod.rs:126-155). *)
Definition bytes_of (fs : list frame) : bytes := fold_left (fun dst f => encode f dst) fs [].

Section steps.
  Context (o : who -> node_options).
  Inductive step (s : state) : event -> state -> Prop :=
  (** node_registry.rs:168-172: a frame for a connected node. *)
  | st_hand w f : sd_sending (get w s) = true -> heartbeat f = false ->
      step s (Handed w f) (put w (queued (now s, SendFrame f) (get w s)) s)
  (** :117-131: the message that waits first is written. *)
  | st_send w t m q : sd_sending (get w s) = true -> sd_queue (get w s) = (t, m) :: q ->
      step s (Wrote w (frames_of m)) (put w (sent (now s) q (bytes_of (frames_of m)) true (get w s)) s)
  (** :107-113: nothing to send for heartbeat_interval. *)
  | st_ping w : sd_sending (get w s) = true -> sd_queue (get w s) = [] ->
      (sd_since (get w s) + o_interval (o w) <= now s)%N ->
      step s (Wrote w [FPing]) (put w (sent (now s) [] (bytes_of [FPing]) true (get w s)) s)
  (** The write fails, perhaps after some of the bytes: the sender panics. *)
  | st_send_fail w t m q bs : sd_sending (get w s) = true -> sd_queue (get w s) = (t, m) :: q ->
      bs `prefix_of` bytes_of (frames_of m) ->
      step s (WriteFailed w (frames_of m)) (put w (sent (now s) q bs false (get w s)) s)
  | st_ping_fail w bs : sd_sending (get w s) = true -> sd_queue (get w s) = [] ->
      (sd_since (get w s) + o_interval (o w) <= now s)%N -> bs `prefix_of` bytes_of [FPing] ->
      step s (WriteFailed w [FPing]) (put w (sent (now s) [] bs false (get w s)) s)
  (** Framed reads some bytes when the buffer holds no frame. *)
  | st_read w c rest : sd_receiving (get w s) = true -> fst (decode (sd_buf (get w s))) = NeedMore ->
      sd_out (get (peer w) s) = c ++ rest ->
      step s Inside (put w (read_bytes c (get w s)) (put (peer w) (out_left rest (get (peer w) s)) s))
  (** :140-151. [ok] is false if handling the frame panics, which a hello always does (:147). *)
  | st_frame w f buf ok : sd_receiving (get w s) = true -> decode (sd_buf (get w s)) = (Frame f, buf) ->
      (match f with FHello _ _ _ => ok = false | FPing | FPong => ok = true | _ => True end) ->
      step s (Handled w f) (put w (heard (now s) buf f ok (get w s)) s)
  (** :140-142: nothing decoded for heartbeat_timeout. *)
  | st_expired w : sd_receiving (get w s) = true -> fst (decode (sd_buf (get w s))) = NeedMore ->
      (sd_heard (get w s) + o_timeout (o w) <= now s)%N ->
      step s (TimedOut w) (put w (deaf (get w s)) s)
  (** :143-144. *)
  | st_broken w : sd_receiving (get w s) = true -> step s (Broken w) (put w (deaf (get w s)) s)
  (** :305-314: the supervisor answers SendPong. *)
  | st_pong w n : sd_supervising (get w s) = true -> sd_pongs (get w s) = Datatypes.S n ->
      step s Inside (put w (let x := ponged n (get w s) in if sd_sending x then queued (now s, SendFrame FPong) x else x) s)
  (** The processes of a connection are killed with each other, by Node::disconnect, ... *)
  | st_stop_sender w : step s (Stopped w) (put w (mute (get w s)) s)
  | st_stop_receiver w : step s (Stopped w) (put w (deaf (get w s)) s)
  | st_stop_supervisor w : step s (Stopped w) (put w (unsupervised (get w s)) s).

  (** Runs: the events with the times they happened at.  [may tr s t]: time may go on to [t] after
      the events [tr] in state [s]. *)
  Inductive runs (may : list (N * event) -> state -> N -> Prop) (s0 : state) : list (N * event) -> state -> Prop :=
  | runs_start : runs may s0 [] s0
  | runs_step tr s e s' : runs may s0 tr s -> step s e s' -> runs may s0 (tr ++ [(now s, e)]) s'
  | runs_time tr s t : runs may s0 tr s -> (now s <= t)%N -> may tr s t -> runs may s0 tr (at_time t s).
End steps.

(** :296-303 and node_registry.rs:146-156: both ends have just registered their workers, which hands
    what was pending for the node to the sender in one message.  The receiver of [w] began to wait at
    [h w]. *)
Definition fresh_side (t h : N) (pending : list frame) : side :=
  Side [(t, SendFrames pending)] t 0 [] h true true true [].
Definition fresh (t : N) (h : who -> N) (pending : who -> list frame) : state :=
  State t (fresh_side t (h A) (pending A)) (fresh_side t (h B) (pending B)).
