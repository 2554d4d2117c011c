(** Specification vocabulary for supervisors (C37-C45). *)
From stdpp Require Import base list gmap numbers strings sets.
From Coq Require Import ZArith.
From Verif Require Import Types Super.

Definition children (w : sworld) : list child := s_children (v_sup w).
Definition ids_of (l : list child) : list string := map c_id l.
(** The child has a process on record. *)
Definition has_pid (c : child) (p : pid) : Prop := c_pid c = Some p.
(** A child as recorded after its process was started as [p] / its start function said "ignore". *)
Definition running_as (c : child) (p : pid) : child := Child (c_spec c) (Some p) false.
Definition ignored (c : child) : child := Child (c_spec c) None false.
(** ... after its process was stopped; ... when another attempt to start it is on its way. *)
Definition stopped (c : child) : child := match c_pid c with Some _ => Child (c_spec c) None false | None => c end.
Definition retrying (c : child) : child := Child (c_spec c) (c_pid c) true.

(** How the processes of these children are stopped, in order. *)
Definition stops (l : list child) : list effect :=
  omap (fun c => match c_pid c with Some p => Some (Stops p (c_shutdown c)) | None => None end) l.

(** Starting the children [l] one after the other, the first start being the [t]-th: the calls of start
    functions, the children afterwards, and the child whose start failed, if one did (then those
    after it are not started). *)
Inductive attempts (answers : nat -> answer) : nat -> list child -> list effect -> list child -> option string -> Prop :=
| attempts_nil t : attempts answers t [] [] [] None
| attempts_up t c l p es l' f : answers t = Up p -> attempts answers (S t) l es l' f ->
    attempts answers t (c :: l) (Starts (c_id c) (Up p) :: es) (running_as c p :: l') f
| attempts_ignore t c l es l' f : answers t = Down RIgnore -> attempts answers (S t) l es l' f ->
    attempts answers t (c :: l) (Starts (c_id c) (Down RIgnore) :: es) (ignored c :: l') f
| attempts_fail t c l e : answers t = Down e -> e <> RIgnore ->
    attempts answers t (c :: l) [Starts (c_id c) (Down e)] (retrying c :: l) (Some (c_id c)).

(** Whether a child that ended for [r] is to be restarted. *)
Definition to_be_restarted (k : restart) (r : exit_reason) : Prop :=
  match k with
  | Permanent => True
  | Transient => r <> RNormal /\ r <> RCustom "shutdown"
  | Temporary => False
  end.
Global Instance restart_eq_dec : EqDecision restart. Proof. solve_decision. Defined.
Global Instance to_be_restarted_dec k r : Decision (to_be_restarted k r).
Proof. destruct k; cbn; apply _. Defined.
(** Whether a restart at [now] is one too many: the restarts within the window before [now] and this one
    are more than the maximum.  [times] are the restarts before. *)
Definition in_window (w : sup) (now t : Z) : Prop := (now - Z.of_N (s_window w) <= t)%Z.
Global Instance in_window_dec w now t : Decision (in_window w now t) := _ : Decision (_ <= _)%Z.
Definition too_many (s : sup) (times : list Z) (now : Z) : Prop :=
  (s_max s < N.of_nat (S (length (filter (in_window s now) times))))%N.
Global Instance too_many_dec s times now : Decision (too_many s times now) := _ : Decision (_ < _)%N.
(** The clock does not run out (std::time::Instant). *)
Definition window_ok (s : sup) (now : Z) : Prop := (INSTANT_MIN <= now - Z.of_N (s_window s))%Z.

(** The children a strategy restarts when the child between [pre] and [post] has ended: those left alone,
    those stopped first, those started. *)
Definition left_alone (st : strategy) (pre post : list child) : list child * list child :=
  match st with OneForOne => (pre, post) | RestForOne => (pre, []) | OneForAll => ([], []) end.
Definition stopped_first (st : strategy) (pre post : list child) : list child :=
  match st with OneForOne => [] | RestForOne => post | OneForAll => pre ++ post end.
Definition started_then (st : strategy) (pre : list child) (c : child) (post : list child) : list child :=
  match st with
  | OneForOne => [c]
  | RestForOne => c :: map stopped post
  | OneForAll => map stopped pre ++ c :: map stopped post
  end.
(** The whole effect of restarting child [c]. *)
Record restarted (answers : nat -> answer) (w : sworld) (pre : list child) (c : child) (post : list child)
    (effects : list effect) (after : list child) (failed : option string) (w' : sworld) : Prop := Restarted {
  rs_attempts : attempts answers (v_tick w) (started_then (s_strategy (v_sup w)) pre c post) effects after failed;
  rs_log : v_log w' = v_log w ++ stops (stopped_first (s_strategy (v_sup w)) pre post) ++ effects;
  rs_list : children w' = fst (left_alone (s_strategy (v_sup w)) pre post) ++ after ++ snd (left_alone (s_strategy (v_sup w)) pre post);
  rs_casts : v_casts w' = v_casts w ++ option_list failed;
  rs_tick : v_tick w' = v_tick w + length effects;
  rs_ids : s_ids (v_sup w') = s_ids (v_sup w);
  rs_options : s_strategy (v_sup w') = s_strategy (v_sup w) /\ s_auto (v_sup w') = s_auto (v_sup w) /\ s_max (v_sup w') = s_max (v_sup w) /\
               s_window (v_sup w') = s_window (v_sup w) }.
