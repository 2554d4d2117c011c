(** The calls a program can make, as one type, and the two ways the model runs them: one after the
    other (histories) and interleaved in every possible way (Prog.v).  No proofs in this file. *)
From stdpp Require Import base list gmap numbers strings countable sorting.
From Verif Require Import Prog Types Mailbox World ProcApi NodeApi.

(** [me] is the process that makes the call.  Events that are not calls of user code: [CTick] (time
    passes), [CFire] (a timer's task wakes up), [CFinish] (a process' future returned or was
    aborted), [CCrash] (it panicked), [CSupervise] (a handshake succeeded), [CSupDown] (a connection
    was lost), [CFrame] (a frame arrived), [CLocalPanic] (the local supervisor was dropped). *)
Inductive call :=
| CAlias (me : N) (reply : bool) | CUnalias (me : N) (r : reference)
| CWhereis (n : string) | CSend (ds : dests) (v : value)
| CSendAfter (ds : dests) (v : value) (d : N) | CCancel (r : reference) | CReadTimer (r : reference)
| CFire (id : N) | CTick
| CSpawn (me : N) (link monitor : bool)
| CAlive (p : pid) | CRegister (p : pid) (n : string) | CUnregister (n : string)
| CRegistered | CList
| CLink (me : N) (p : pid) | CUnlink (me : N) (p : pid)
| CMonitor (me : N) (d : dest) | CMonitorAlias (me : N) (d : dest) (reply : bool)
| CDemonitor (me : N) (r : reference)
| CFlags (me : N) | CSetFlags (me : N) (trap : bool)
| CExit (me : N) (p : pid) (why : exit_reason) | CInfo (p : pid)
| CReceive (me T : N) (f : message -> bool) (strict : bool)
| CFinish (me : N) | CCrash (me : N) (why : exit_reason)
| CNodeAlive | CNodeStart (name : string) (addr : sockaddr) | CNodeStop (me : N) | CLocalPanic
| CNodeList | CNodeListBy (st : node_state)
| CConnect (nd : node) | CDisconnect (me : N) (nd : node) | CForget (me : N) (nd : node)
| CNodeMonitor (me : N) (nd : node) | CNodeDemonitor (me : N) (r : reference)
| CSupervise (me : N) (name : string) (addr : sockaddr) | CSupDown (nd : node) (p : pid)
| CFrame (nd : node) (sup : pid) (f : frame).

(** What a call may return. *)
Inductive val :=
| VUnit | VBool (b : bool) | VRef (r : reference) | VPid (p : pid) | VPidRef (p : pid) (r : reference)
| VOptPid (p : option pid) | VErr (e : option string) | VOptTime (t : option N)
| VNames (l : list string) | VPids (l : list pid) | VInfo (i : option info_t)
| VReceived (s : option sel) | VNodes (l : list node) | VWorkers (s r : pid).

Definition ret_as {A} (f : A -> val) (p : prog world A) : prog world val := let! x := p in Ret (f x).

Section api.
  Context (S : serde).
  Definition call_prog (c : call) : prog world val :=
    match c with
    | CAlias me b => ret_as VRef (alias me b)
    | CUnalias me r => ret_as VBool (unalias me r)
    | CWhereis n => ret_as VOptPid (whereis n)
    | CSend ds v => ret_as (fun _ => VUnit) (send S ds v)
    | CSendAfter ds v d => ret_as VRef (send_after ds v d)
    | CCancel r => ret_as (fun _ => VUnit) (cancel_timer r)
    | CReadTimer r => ret_as VOptTime (read_timer r)
    | CFire i => ret_as (fun _ => VUnit) (timer_fire S i)
    | CTick => ret_as (fun _ => VUnit) (modify (up_now N.succ))
    | CSpawn me l m =>
        ret_as (fun x => match snd x with Some r => VPidRef (fst x) r | None => VPid (fst x) end) (spawn me l m)
    | CAlive p => ret_as VBool (alive p)
    | CRegister p n => ret_as VErr (register p n)
    | CUnregister n => ret_as (fun _ => VUnit) (unregister n)
    | CRegistered => ret_as VNames registered
    | CList => ret_as VPids list_processes
    | CLink me p => ret_as (fun _ => VUnit) (link me p)
    | CUnlink me p => ret_as (fun _ => VUnit) (unlink me p)
    | CMonitor me d => ret_as VRef (monitor me d)
    | CMonitorAlias me d b => ret_as VRef (monitor_alias me d b)
    | CDemonitor me r => ret_as (fun _ => VUnit) (demonitor me r)
    | CFlags me => ret_as VBool (flags me)
    | CSetFlags me b => ret_as (fun _ => VUnit) (set_flags me b)
    | CExit me p why => ret_as (fun _ => VUnit) (exit me p why)
    | CInfo p => ret_as VInfo (info p)
    | CReceive me T f strict => ret_as VReceived (try_receive S me T f strict)
    | CFinish me => ret_as (fun _ => VUnit) (drop_process me)
    | CCrash me why => ret_as (fun _ => VUnit) (crash me why)
    | CNodeAlive => ret_as VBool node_alive
    | CNodeStart n a => ret_as VPid (node_start n a)
    | CNodeStop me => ret_as (fun _ => VUnit) (node_stop me)
    | CLocalPanic => ret_as (fun _ => VUnit) node_local_panic
    | CNodeList => ret_as VNodes node_list
    | CNodeListBy st => ret_as VNodes (node_list_by st)
    | CConnect nd => ret_as (fun _ => VUnit) (node_connect nd)
    | CDisconnect me nd => ret_as (fun _ => VUnit) (node_disconnect me nd)
    | CForget me nd => ret_as (fun _ => VUnit) (forget me nd)
    | CNodeMonitor me nd => ret_as VRef (node_monitor me nd)
    | CNodeDemonitor me r => ret_as (fun _ => VUnit) (node_demonitor me r)
    | CSupervise me n a => ret_as (fun x => VWorkers (fst x) (snd x)) (remote_supervisor me n a)
    | CSupDown nd p => ret_as (fun _ => VUnit) (supervisor_down nd p)
    | CFrame nd sup f => ret_as (fun _ => VUnit) (receive_frame nd sup f)
    end.

  (** Every call may begin at any time. *)
  Definition any_call (p : prog world val) : Prop := exists c, p = call_prog c.
  (** Only calls satisfying [ok]. *)
  Definition calls_of (ok : call -> Prop) (p : prog world val) : Prop := exists c, ok c /\ p = call_prog c.

  (** Histories: complete calls, one after the other.  A call that panics leaves the state it had
      reached; one that cannot make progress (a timer that is not due) does not happen. *)
  Inductive happens (c : call) (w w' : world) : Prop :=
  | happens_done v : run (call_prog c) w = Done w' v -> happens c w w'
  | happens_panic m : run (call_prog c) w = Panicked w' m -> happens c w w'.
  Inductive history (ok : call -> world -> Prop) : world -> list call -> world -> Prop :=
  | history_nil w : history ok w [] w
  | history_snoc w cs w1 c w2 : history ok w cs w1 -> ok c w1 -> happens c w1 w2 -> history ok w (cs ++ [c]) w2.

  (** Which process makes the call, if any particular one. *)
  Definition caller (c : call) : option N :=
    match c with
    | CAlias me _ | CUnalias me _ | CLink me _ | CUnlink me _ | CMonitor me _
    | CMonitorAlias me _ _ | CDemonitor me _ | CFlags me | CSetFlags me _ | CExit me _ _
    | CReceive me _ _ _ | CFinish me | CCrash me _ | CNodeStop me | CDisconnect me _ | CForget me _
    | CNodeMonitor me _ | CNodeDemonitor me _ | CSupervise me _ _ => Some me
    | CSpawn me l m => if l || m then Some me else None
    | _ => None
    end.
  (** A call is made by a process that is running (its object exists and it is registered). *)
  Definition made_by_running (c : call) (w : world) : Prop :=
    match caller c with
    | Some me => is_Some (w_loc w !! me) /\ is_Some (w_regs w !! me)
    | None => True
    end.
  (** Sequential reachability from the empty node. *)
  Definition seq_reachable (w : world) : Prop := exists cs, history made_by_running world0 cs w.
End api.
