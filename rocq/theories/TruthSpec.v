(** Specification vocabulary for "a down notice or exit message tells the truth" (C75, C76).  [ws]: the states of the node a run
    passes through, one atomic step apart; [m]: a moment of the run. *)
From stdpp Require Import base list gmap numbers strings countable.
From Verif Require Import Types Mailbox World.

(** By moment [m] process [i] has left the registry, with exit reason [why]: the last one set by a signal
    or by a panic, normal if none was. *)
Definition ended_by (ws : list world) (m : nat) (i : N) (why : exit_reason) : Prop :=
  exists n w w' r, n < m /\ ws !! n = Some w /\ ws !! (Datatypes.S n) = Some w' /\
    w_regs w !! i = Some r /\ w_regs w' !! i = None /\ why = default RNormal (r_exit r).
(** At some moment up to [m], after the reference [k] was handed out, ... *)
Definition since (ws : list world) (m : nat) (k : N) (P : world -> Prop) : Prop :=
  exists n w, n <= m /\ ws !! n = Some w /\ (k < w_next_ref w)%N /\ P w.
(** ... process [i] did not exist / name [n] was [i]'s / was nobody's. *)
Definition absent (i : N) (w : world) : Prop := w_regs w !! i = None.
Definition owns_name (n : string) (i : N) (w : world) : Prop := w_names w !! n = Some i.
Definition unowned (n : string) (w : world) : Prop := w_names w !! n = None.

(** What a notice for destination [d] with reference [k] and reason [why] may say. *)
Definition truth (ws : list world) (m : nat) (d : dest) (k : N) (why : exit_reason) : Prop :=
  match d with
  | DPid (PLocal i) => ended_by ws m i why \/ why = RCustom "noproc" /\ since ws m k (absent i)
  | DNamed n NLocal =>
      (exists i, since ws m k (owns_name n i) /\
         (ended_by ws m i why \/ why = RCustom "noproc" /\ since ws m k (absent i))) \/
      why = RCustom "noproc" /\ since ws m k (unowned n)
  | DAlias _ => False
  | DPid (PRemote _ _) | DNamed _ (NRemote _ _) => True   (* another node says so, or is lost: C52, C56 *)
  end.

(** What an exit message from process [p] with reason [why], delivered to process [o], may say.
    [X i o why]: process [i] calls exit on [o] with reason [why] somewhere in the run.  The last case:
    [o], running, linked itself to a process that did not exist. *)
Definition exit_truth (X : N -> N -> exit_reason -> Prop) (ws : list world) (m : nat) (o : N) (p : pid) (why : exit_reason) : Prop :=
  match p with
  | PLocal i => X i o why \/ ended_by ws m i why \/
      why = RCustom "noproc" /\
      (exists n n' w w', n <= n' /\ n' <= m /\ ws !! n = Some w /\ is_Some (w_regs w !! o) /\ ws !! n' = Some w' /\ absent i w')
  | PRemote _ _ => True                                   (* another node says so, or is lost: C52 *)
  end.
(** What a node-down notice for [nd] may say: by moment [m] the node was known but neither connected
    nor being connected to. *)
Definition node_truth (ws : list world) (m : nat) (nd : node) : Prop :=
  exists n w i r, n <= m /\ ws !! n = Some w /\ w_nmap w !! nd = Some i /\ w_nregs w !! i = Some r /\
    n_state r = Known /\ n_sup r = None.
