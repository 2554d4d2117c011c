(** Specification vocabulary for links in every schedule (C87) and for the processes of a connection (C88, C89). *)
From stdpp Require Import base list gmap numbers strings countable.
From Verif Require Import Prog Types Mailbox World ProcApi NodeApi Api ProcSpec.

(** Calls that leave the link from [a] to [j] and [j]'s trap flag alone: everything, the end of either process included,
    but [j] does not unlink from [a] and does not change its flags. *)
Definition keeps_tie (a j : N) (c : call) : Prop :=
  match c with
  | CUnlink i p => ~ (i = j /\ p = PLocal a)
  | CSetFlags i _ => i <> j
  | _ => True
  end.
(** All calls have returned. *)
Definition settled {W R} (s : sys W R) : Prop :=
  Forall (fun p => match p with Atom _ _ _ => False | _ => True end) (s_threads s).
(** Process [a] leaves the registry with reason [why] in this step. *)
Definition leaves (a : N) (why : exit_reason) (s1 s2 : sys world val) : Prop :=
  exists r, w_regs (s_world s1) !! a = Some r /\ final_reason r = why /\ w_regs (s_world s2) !! a = None.
(** Process [j], which traps exits or not, has got the exit signal of [a]'s end: if it has not ended itself,
    - it traps exits and an Exit message from [a] with the reason has arrived since [since];
    - or it does not, and has been terminated, unless the reason is Normal. *)
Definition told (a j : N) (traps : bool) (why : exit_reason) (since w : world) : Prop :=
  match w_regs w !! j with
  | None => True
  | Some r => if traps then (j, ISystem (SExit (PLocal a) why)) ∈ drop (length (w_log since)) (w_log w)
              else why = RNormal \/ r_abort r = true
  end.

(** ** Connections (C88, C89) and the local node (C90) *)
(** Calls that leave the ties between the processes [ids] alone. *)
Definition keeps_ties (ids : list N) (c : call) : Prop := forall i j, i ∈ ids -> j ∈ ids -> keeps_tie i j c.
(** A step in which none of the processes [ids] ends normally. *)
Definition no_normal_end (ids : list N) (s1 s2 : sys world val) : Prop := forall i why, i ∈ ids -> leaves i why s1 s2 -> why <> RNormal.
(** Executions of calls that leave the ties alone and in which none of the processes ends normally. *)
Definition runs_on (S : serde) (ids : list N) : sys world val -> sys world val -> Prop :=
  rtc (fun s1 s2 => sys_step (calls_of S (keeps_ties ids)) s1 s2 /\ no_normal_end ids s1 s2).
(** Every process told to end has ended: nobody is registered with a pending termination. *)
Definition none_aborted (w : world) : Prop := forall i r, w_regs w !! i = Some r -> r_abort r = false.
Definition ended (w : world) (i : N) : Prop := w_regs w !! i = None.
(** [i] is registered, has a mailbox and does not trap exits. *)
Definition plain (w : world) (i : N) : Prop := is_Some (w_loc w !! i) /\ exists r, w_regs w !! i = Some r /\ r_trap r = false.
(** [i] is registered and has a mailbox. *)
Definition here (w : world) (i : N) : Prop := is_Some (w_loc w !! i) /\ is_Some (w_regs w !! i).
(** Calls other than stopping the local node. *)
Definition not_node_stop (c : call) : Prop := match c with CNodeStop _ => False | _ => True end.
(** ... and other than the clean-up of a local node that has ended. *)
Definition no_clean_up (c : call) : Prop := match c with CNodeStop _ | CLocalPanic => False | _ => True end.
