(** Specification vocabulary for timers (C31). *)
From stdpp Require Import base list gmap numbers strings countable sorting.
From Verif Require Import Prog Types Mailbox World ProcApi NodeApi Api SchedSpec.

(** To follow the message [v] of one timer: no other call and no other timer carries it. *)
Definition carries_others (S : serde) (v : value) (c : call) : Prop :=
  match c with
  | CSend _ u | CSendAfter _ u _ => other_value S v u
  | CFrame _ _ (FSend _ m) => ~ carries S v (IUserRemote m)
  | _ => True
  end.
Definition timers_carry_others (S : serde) (v : value) (k : N) (w : world) : Prop :=
  forall i t, i <> k -> w_tasks w !! i = Some t -> other_value S v (t_val t).
(** The call cancels the timer [k] / is the wake-up of its task. *)
Definition cancels (k : N) (c : call) : Prop := match c with CCancel r => ref_id r = k | _ => False end.
Definition fires (k : N) (c : call) : Prop := match c with CFire i => i = k | _ => False end.
(** The local destinations: how many deliveries there may be. *)
Definition local_dests (ds : dests) : nat := length (filter (fun d => dest_is_local d = true) (dests_list ds)).
