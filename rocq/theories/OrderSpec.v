(** The order of what a process' end tells others: the words of C79. *)
From stdpp Require Import base list gmap numbers strings.
From Verif Require Import Prog Types Mailbox World Api.

(** A down notice for process [p] that says how it ended (not "there was no such process"). *)
Definition end_notice (p : N) (x : N * item) : Prop :=
  exists r why, snd x = IProcessDown (DPid (PLocal p)) r why /\ why <> RCustom "noproc".
(** An exit signal of process [p] in the mailbox of [me]. *)
Definition exit_signal (p me : N) (x : N * item) : Prop :=
  exists why, x = (me, ISystem (SExit (PLocal p) why)).
(** In a list of arrivals, no exit signal of [p] for [me] comes after a notice of [p]'s end. *)
Definition exits_first (p me : N) (l : list (N * item)) : Prop :=
  forall i j x y, l !! i = Some x -> l !! j = Some y -> end_notice p x -> exit_signal p me y -> j < i.
(** [p] does not call Process::exit on [me], and [me] does not call Process::link on [p] (it may well be
    linked to [p] by spawn_link, or by a call of [p]). *)
Definition no_late_link (p me : N) (c : call) : Prop :=
  match c with
  | CExit q (PLocal o) _ => ~ (q = p /\ o = me)
  | CLink o (PLocal q) => ~ (q = p /\ o = me)
  | _ => True
  end.
