(** Specification vocabulary for calls that do not overlap: what a process is told, and by whom. *)
From stdpp Require Import base list gmap numbers strings countable sorting.
From Verif Require Import Prog Types Mailbox MailboxSpec World ProcApi NodeApi Api.

(** The process object after [xs] arrived in its mailbox, everything else about it unchanged. *)
Definition after_arrival (xs : list item) (l : plocal) : plocal := set_chan (l_chan l ++ xs) l.
(** In [w'] the processes are those of [w], process [j] having received [news j]. *)
Definition received (news : N -> list item) (w w' : world) : Prop :=
  forall j, w_loc w' !! j = after_arrival (news j) <$> w_loc w !! j.

(** ** Exit signals: the documented table (process.rs:387-396 and the Process::exit docs). *)
Inductive verdict := Ignored | Delivered | Terminated.
Definition exit_table (self trap : bool) (why : exit_reason) : verdict :=
  match why, self, trap with
  | RKill, _, _ => Terminated
  | (RNormal | RIgnore), true, _ => Terminated
  | (RNormal | RIgnore), false, true => Delivered
  | (RNormal | RIgnore), false, false => Ignored
  | RCustom _, true, _ => Terminated
  | RCustom _, false, true => Delivered
  | RCustom _, false, false => Terminated
  end.
(** A registration that has been told to terminate with [why]. *)
Definition terminated (why : exit_reason) (r : registration) : registration :=
  Reg (r_name r) (r_trap r) (Some why) true.

(** All tables but the process registrations, the process objects and the ghost log agree. *)
Record same_elsewhere (w w' : world) : Prop := SameElsewhere {
  se_next_pid : w_next_pid w' = w_next_pid w; se_next_ref : w_next_ref w' = w_next_ref w;
  se_next_node : w_next_node w' = w_next_node w;
  se_names : w_names w' = w_names w; se_timers : w_timers w' = w_timers w; se_tasks : w_tasks w' = w_tasks w;
  se_links : w_links w' = w_links w; se_mons : w_mons w' = w_mons w; se_aliases : w_aliases w' = w_aliases w;
  se_running : w_running w' = w_running w;
  se_nmap : w_nmap w' = w_nmap w; se_nregs : w_nregs w' = w_nregs w; se_nmons : w_nmons w' = w_nmons w;
  se_nlinks : w_nlinks w' = w_nlinks w; se_pend : w_pend w' = w_pend w; se_out : w_out w' = w_out w;
  se_now : w_now w' = w_now w }.

(** ** Links *)
(** Process [j] is in the link set of [a]. *)
Definition linked (w : world) (a j : N) : bool := bool_decide (PLocal j ∈ default ∅ (w_links w !! a)).
(** What the exit signal of a linked process does to a registration: nothing if it traps exits (it
    gets a message) or the reason is Normal. *)
Definition signalled (why : exit_reason) (r : registration) : registration :=
  if r_trap r then r else match why with RNormal => r | _ => terminated why r end.
Definition exit_message (w : world) (a : N) (why : exit_reason) (j : N) : list item :=
  if linked w a j then
    match w_regs w !! j with
    | Some r => if r_trap r then [ISystem (SExit (PLocal a) why)] else []
    | None => []
    end
  else [].

(** ** Monitors *)
(** The down notices for [j], a live process, about the monitors it has on [a], in reference order. *)
Definition down_notices (w : world) (a : N) (why : exit_reason) (j : N) : list item :=
  match w_regs w !! j with
  | Some _ => omap (fun x => match snd x with
                             | (from, Some d) => if decide (from = PLocal j) then Some (IProcessDown d (fst x) why) else None
                             | _ => None
                             end) (sorted_refs (default ∅ (w_mons w !! a)))
  | None => []
  end.
(** The reason a registered process exits with when its future ends. *)
Definition final_reason (r : registration) : exit_reason := default RNormal (r_exit r).
(** The monitors stored for process [a] that come from local processes name their destination. *)
Definition mons_named (w : world) (a : N) : Prop :=
  forall r from d, default ∅ (w_mons w !! a) !! r = Some (from, d) -> pid_is_local from = true -> is_Some d.

(** The aliases that go with process [a]: those it made, those of the monitors it has on known
    targets, and those of the monitors others have on it. *)
Definition releases_alias (w : world) (a : N) (l : plocal) (k : N) : Prop :=
  k ∈ l_aliases l \/ (exists m, l_monitors l !! RLocal k = Some m /\ m <> MForProcess None) \/
  is_Some (default ∅ (w_mons w !! a) !! RLocal k).

(** ** The end of process [a], which ended with [why], as the rest of the node sees it. *)
Record exited (w : world) (a : N) (r : registration) (why : exit_reason) (w' : world) : Prop := Exited {
  (* it is gone *)
  ex_reg : w_regs w' !! a = None;
  ex_loc : w_loc w' !! a = None;
  ex_running : w_running w' = w_running w ∖ {[a]};
  (* the others: linked ones are signalled, nobody else *)
  ex_regs : forall j, j <> a ->
    w_regs w' !! j = if linked w a j then signalled why <$> w_regs w !! j else w_regs w !! j;
  (* their mailboxes: one Exit message per trapping linked process, one notice per monitor *)
  ex_mail : forall j, j <> a ->
    w_loc w' !! j = after_arrival (exit_message w a why j ++ down_notices w a why j) <$> w_loc w !! j;
  (* its name is free, the other names are untouched *)
  ex_names : w_names w' = match r_name r with Some n => delete n (w_names w) | None => w_names w end;
  (* no link or monitor is stored for it any more *)
  ex_links : w_links w' !! a = None;
  ex_mons : w_mons w' !! a = None;
  (* in the link sets of others: it is removed from those of the processes in its own link set *)
  ex_link_tables : forall j p, j <> a ->
    (p ∈ default ∅ (w_links w' !! j) <-> p ∈ default ∅ (w_links w !! j) /\ ~ (p = PLocal a /\ linked w a j = true));
  (* the monitors it had installed on local processes are gone, the others are untouched *)
  ex_mon_tables : forall l t x, w_loc w !! a = Some l -> t <> a -> default ∅ (w_mons w' !! t) !! x =
    if decide (l_monitors l !! x = Some (MForProcess (Some (PLocal t)))) then None else default ∅ (w_mons w !! t) !! x;
  (* the aliases it had are gone, and so are those of the monitors by and on it *)
  ex_aliases : forall l k, w_loc w !! a = Some l -> releases_alias w a l k -> w_aliases w' !! k = None;
  ex_other_aliases : forall l k, w_loc w !! a = Some l -> ~ releases_alias w a l k -> w_aliases w' !! k = w_aliases w !! k;
}.

(** ** The notices about monitor reference [k] a process may still receive (MailboxSpec.v). *)
Definition about (k : N) (p : pend) : Prop :=
  match p with PSys (SProcessDown _ r _) | PSys (SNodeDown _ r) => r = RLocal k | _ => False end.
Global Instance about_dec k p : Decision (about k p).
Proof. destruct p as [| |[]]; cbn; apply _. Defined.
Definition notices (k : N) (l : plocal) : list pend := filter (about k) (mailbox l).

(** [d] is a destination that means the local process [i] in [w]. *)
Definition means (w : world) (d : dest) (i : N) : Prop :=
  d = DPid (PLocal i) \/ exists n, d = DNamed n NLocal /\ w_names w !! n = Some i.
(** Calls that leave the monitor [k] of [me] on [target] alone: not the end of either process, not
    its removal by [me]. *)
Definition leaves_monitor (k me target : N) (c : call) : Prop :=
  match c with
  | CFinish i | CCrash i _ => i <> me /\ i <> target
  | CDemonitor i r | CNodeDemonitor i r => ~ (i = me /\ r = RLocal k)
  | _ => True
  end.

(** Calls after which [j] is still in the link set of [a], if it was: neither exits, and [j] does not
    unlink from [a]. *)
Definition leaves_link (a j : N) (c : call) : Prop :=
  match c with
  | CFinish i | CCrash i _ => i <> a /\ i <> j
  | CUnlink i p => ~ (i = j /\ p = PLocal a)
  | _ => True
  end.
(** Calls that do not link the two. *)
Definition makes_no_link (a j : N) (c : call) : Prop :=
  match c with
  | CLink i p => ~ (i = a /\ p = PLocal j) /\ ~ (i = j /\ p = PLocal a)
  | _ => True
  end.

(** Calls that leave the name [n] of process [i] alone. *)
Definition leaves_name (i : N) (n : string) (c : call) : Prop :=
  match c with
  | CUnregister m => m <> n
  | CFinish j | CCrash j _ => j <> i
  | _ => True
  end.
(** Calls that leave the flags of process [i] alone. *)
Definition leaves_flags (i : N) (c : call) : Prop :=
  match c with
  | CSetFlags j _ => j <> i
  | CFinish j | CCrash j _ => j <> i
  | _ => True
  end.
