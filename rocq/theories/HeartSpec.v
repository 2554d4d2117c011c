(** Specification vocabulary for connections (C81-C84). *)
From stdpp Require Import base list gmap numbers strings countable.
From Verif Require Import Types Codec CodecSpec Options Heart.

Global Instance who_eq_dec : EqDecision who. Proof. solve_decision. Defined.

(** What the node gave to the sender of [w], what that sender wrote, what the receiver of [w] got. *)
Definition handed (w : who) (tr : list (N * event)) : list frame :=
  omap (fun e => match snd e with Handed w' f => if decide (w' = w) then Some f else None | _ => None end) tr.
Definition wrote (w : who) (tr : list (N * event)) : list (N * frame) :=
  tr ≫= (fun e => match snd e with Wrote w' fs => if decide (w' = w) then pair (fst e) <$> fs else [] | _ => [] end).
Definition got (w : who) (tr : list (N * event)) : list (N * frame) :=
  omap (fun e => match snd e with Handled w' f => if decide (w' = w) then Some (fst e, f) else None | _ => None end) tr.

(** Without pings and pongs. *)
Definition payload (fs : list frame) : list frame := filter (fun f => heartbeat f = false) fs.
(** How often [f] occurs. *)
Definition times (f : frame) (fs : list frame) : nat := length (filter (fun g => g = f) fs).

(** Frames that are Rust values of less than 4 GiB, other than the hello of the handshake. *)
Definition sendable (f : frame) : Prop :=
  rust_frame f = true /\ fits f = true /\ match f with FHello _ _ _ => False | _ => True end.

(** Time passes freely. *)
Definition free (tr : list (N * event)) (s : state) (t : N) : Prop := True.

(** The sender of [w] is prompt: it acts at most [d] after it can, that is after its wait of
    heartbeat_interval is over or a message is there. *)
Definition sender_prompt (o : who -> node_options) (w : who) (d : N) (tr : list (N * event)) (s : state) (t : N) : Prop :=
  sd_sending (get w s) = true ->
  (t <= match sd_queue (get w s) with
        | [] => sd_since (get w s) + o_interval (o w)
        | q :: _ => N.min (sd_since (get w s) + o_interval (o w)) (N.max (sd_since (get w s)) (fst q))
        end + d)%N.
(** The link to [w] is prompt: what its peer writes is handled at most [d] later. *)
Definition link_prompt (w : who) (d : N) (tr : list (N * event)) (s : state) (t : N) : Prop :=
  sd_receiving (get w s) = true ->
  forall n u f, wrote (peer w) tr !! n = Some (u, f) -> length (got w tr) <= n -> (t <= u + d)%N.
(** The receiver of [w] is prompt: it gives up at most [d] after it can. *)
Definition receiver_prompt (o : who -> node_options) (w : who) (d : N) (tr : list (N * event)) (s : state) (t : N) : Prop :=
  sd_receiving (get w s) = true -> (t <= sd_heard (get w s) + o_timeout (o w) + d)%N.

(** When the receiver of [w] last got anything. *)
Definition last_heard (w : who) (t0 : N) (tr : list (N * event)) : N := default t0 (list.last (fst <$> got w tr)).
