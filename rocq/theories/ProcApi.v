(** Model of the process API: hydra/src/process.rs, process_kernel.rs, process_registry.rs,
    link.rs, monitor.rs, alias.rs, node_kernel.rs.  Every call is a program of atomic steps on the
    shared state of World.v, in the order the code performs them.  No proofs in this file.

    [me] is the id of the calling process (PROCESS.with / Process::current()). Looking a sender up
    and sending on it is one step ([send_to]): a process that is dropped in between discards the
    message either way. *)
From stdpp Require Import base list gmap numbers strings countable sorting.
From Verif Require Import Prog Types Mailbox World.

(** reference.rs:38-48 Reference::new: one fetch_add. *)
Definition fresh_ref : prog world reference :=
  atom (fun w => (up_next_ref N.succ w, RLocal (w_next_ref w))).
(** PROCESS.with(..): the caller's own state; no other process touches it. *)
Definition own (me : N) (f : plocal -> plocal) : prog world unit := modify (up_loc (alter f me)).
Definition own_monitor (me : N) (r : reference) (m : pmonitor) : prog world unit :=
  own me (upd_monitors (<[r := m]>)).

(** ** Aliases *)
(** process.rs:105-116. *)
Definition alias (me : N) (reply : bool) : prog world reference :=
  let! r := fresh_ref in
  do! own me (upd_aliases (fun a => {[ref_id r]} ∪ a)) in
  do! modify (alias_create_op me r reply) in
  Ret r.
(** alias.rs:27-29. *)
Definition alias_destroy (r : reference) : prog world bool := atom (alias_destroy_op r).
(** process.rs:121-125. *)
Definition unalias (me : N) (r : reference) : prog world bool :=
  do! own me (upd_aliases (fun a => a ∖ {[ref_id r]})) in
  alias_destroy r.
(** alias.rs:42-50: the remove_if (a one-shot alias is removed, another one is copied). *)
Definition alias_take_op (r : reference) (w : world) : world * option (N * bool) :=
  match w_aliases w !! ref_id r with
  | Some (o, true) => (up_aliases (delete (ref_id r)) w, Some (o, true))
  | x => (w, x)
  end.
(** alias.rs:39-59 alias_retrieve: the process whose sender the alias holds. *)
Definition alias_retrieve (r : reference) : prog world (option N) :=
  let! x := atom (alias_take_op r) in
  match x with
  | Some (o, true) => do! modify (push o (IAliasDeactivated (ref_id r))) in Ret (Some o)
  | Some (o, false) => Ret (Some o)
  | None => Ret None
  end.
(** alias.rs:32-36. *)
Definition alias_destroy_all (l : list N) : prog world unit :=
  each l (fun i => modify (up_aliases (delete i))).

(** ** Sending *)
(** process_registry.rs:55-59 process_name_lookup; process.rs:135-137 whereis. *)
Definition name_lookup (n : string) : prog world (option N) := observe (fun w => w_names w !! n).
Definition whereis (n : string) : prog world (option pid) :=
  let! i := name_lookup n in Ret (PLocal <$> i).
(** process_kernel.rs:88-103 process_send_unoptimal, and the local half of process_send_optimal
    (:106-132). *)
Definition deliver (d : dest) (x : item) : prog world unit :=
  match d with
  | DPid p => modify (send_to (pid_id p) x)
  | DNamed n _ =>
      let! i := name_lookup n in
      match i with Some i => modify (send_to i x) | None => Ret tt end
  | DAlias r =>
      let! o := alias_retrieve r in
      match o with Some o => modify (push o x) | None => Ret tt end
  end.
(** node_registry.rs:233-279 node_register; panics for the local node (:234-236). *)
Definition node_register (nd : node) (connect : bool) : prog world N :=
  match nd with
  | NLocal => Panic "Can't register a local node!"
  | NRemote name addr => atom (node_register_op name addr connect)
  end.
(** The node and the target of a remote destination (process_kernel.rs:56-62,
    node_kernel.rs:56-84). *)
Definition remote_target (d : dest) : prog world (N * send_target) :=
  match d with
  | DPid p => Ret (pid_node p, TPid (pid_id p))
  | DNamed n nd => let! id := node_register nd false in Ret (id, TNamed n)
  | DAlias r => Ret (ref_node r, TAlias (ref_id r))
  end.

Section send.
  Context (S : serde).
  (** process_kernel.rs:106-133 process_send_optimal. *)
  Definition send_one (d : dest) (v : value) : prog world unit :=
    if dest_is_local d then deliver d (IUserLocal v)
    else let! t := remote_target d in
         modify (send_frame (FSend [snd t] (ser S v)) (fst t)).
  (** process_kernel.rs:47-70: the loop over the destinations: the first local one is put aside,
      the other local ones are served, the remote ones are collected. *)
  Fixpoint send_loop (v : value) (l : list dest) (first : option dest) (rem : list (N * send_target))
    : prog world (option dest * list (N * send_target)) :=
    match l with
    | [] => Ret (first, rem)
    | d :: l =>
        if dest_is_local d then
          match first with
          | None => send_loop v l (Some d) rem
          | Some _ => do! deliver d (IUserRemote (ser S v)) in send_loop v l first rem
          end
        else let! t := remote_target d in send_loop v l first (rem ++ [t])
    end.
  (** process_kernel.rs:23-83 process_send; process.rs:155-157 Process::send. *)
  Definition send (ds : dests) (v : value) : prog world unit :=
    match ds with
    | DsOne d => send_one d v
    | DsMany l =>
        let! x := send_loop v l None [] in
        do! match fst x with Some d => send_one d v | None => Ret tt end in
        each (group fst (snd x)) (fun t => modify (send_frame (FSend (map snd (snd t)) (ser S v)) (fst t)))
    end.

  (** ** Timers *)
  (** process.rs:168-187 send_after: the task is handed to tokio before the timer is registered. *)
  Definition send_after (ds : dests) (v : value) (duration : N) : prog world reference :=
    let! r := fresh_ref in
    do! modify (fun w => up_tasks (<[ref_id r := Task (w_now w + duration) ds v true]>) w) in
    do! modify (fun w => up_timers (<[ref_id r := (w_now w + duration)%N]>) w) in
    Ret r.
  (** process_registry.rs:268-272 process_destroy_timer: remove the entry, then abort the task of
      the entry if there was one (abort has no effect on a task that is past its sleep). *)
  Definition destroy_timer (r : reference) : prog world unit :=
    let! x := atom (fun w => (up_timers (delete (ref_id r)) w, w_timers w !! ref_id r)) in
    match x with
    | Some _ => modify (up_tasks (alter (fun t => Task (t_due t) (t_dests t) (t_val t) false) (ref_id r)))
    | None => Ret tt
    end.
  (** process.rs:190-192. *)
  Definition cancel_timer := destroy_timer.
  (** process_registry.rs:254-265. *)
  Definition read_timer (r : reference) : prog world (option N) :=
    observe (fun w => match w_timers w !! ref_id r with
                      | Some due => Some (if decide (due <= w_now w)%N then 0%N else (due - w_now w)%N)
                      | None => None
                      end).
  (** process.rs:177-182: the task of a timer, from the end of its sleep on: it goes on iff it has
      not been aborted; nothing after the sleep is an await point. *)
  Definition timer_fire (id : N) : prog world unit :=
    let! t := Atom (fun w => match w_tasks w !! id with
                             | Some t => t_live t && bool_decide (t_due t <= w_now w)%N
                             | None => false
                             end)
                   (up_tasks (alter (fun t => Task (t_due t) (t_dests t) (t_val t) false) id))
                   (fun w => Ret (w_tasks w !! id)) in
    match t with
    | Some t => do! send (t_dests t) (t_val t) in destroy_timer (RLocal id)
    | None => Ret tt
    end.
End send.

(** ** Spawning *)
(** process.rs:446-495 spawn_internal.  [w_running]: tokio::spawn, before process_insert. *)
Definition spawn (me : N) (link monitor : bool) : prog world (pid * option reference) :=
  let! i := atom (fun w => (up_loc (<[w_next_pid w := new_plocal]>) (up_next_pid N.succ w), w_next_pid w)) in
  do! (if link then do! modify (add_link i (PLocal me)) in modify (add_link me (PLocal i)) else Ret tt) in
  let! r := (if monitor then
               let! r := fresh_ref in
               do! own_monitor me r (MForProcess (Some (PLocal i))) in
               do! modify (add_mon i r (PLocal me) (Some (DPid (PLocal i)))) in
               Ret (Some r)
             else Ret None) in
  do! modify (up_running (fun s => {[i]} ∪ s)) in
  do! modify (up_regs (<[i := new_reg]>)) in
  Ret (PLocal i, r).

(** ** The registry *)
(** process_registry.rs:72-81. *)
Definition alive (p : pid) : prog world bool :=
  match p with
  | PRemote _ _ => Panic "Expected a local pid!"
  | PLocal i => observe (fun w => match w_regs w !! i with
                                  | Some r => bool_decide (r_exit r = None)
                                  | None => false
                                  end)
  end.
(** process_registry.rs:84-133; the result is the error, if any. *)
Definition register (p : pid) (n : string) : prog world (option string) := atom (register_op p n).
(** process_registry.rs:136-145. *)
Definition unregister (n : string) : prog world unit :=
  let! i := atom (fun w => (up_names (delete n) w, w_names w !! n)) in
  match i with
  | None => Panic "Name was not registered!"
  | Some i => modify (up_regs (alter (fun r => Reg None (r_trap r) (r_exit r) (r_abort r)) i))
  end.
(** process_registry.rs:233-246 (the iteration over the shards is taken as one step). *)
Definition list_processes : prog world (list pid) :=
  observe (fun w => map (fun x => PLocal (fst x)) (map_to_list (w_regs w))).
Definition registered : prog world (list string) :=
  observe (fun w => map fst (map_to_list (w_names w))).
(** process.rs:378-385; flags() unwraps. *)
Definition flags (me : N) : prog world bool :=
  let! f := observe (fun w => r_trap <$> w_regs w !! me) in
  match f with Some f => Ret f | None => Panic "called `Option::unwrap()` on a `None` value" end.
Definition set_flags (me : N) (trap : bool) : prog world unit := modify (set_flags_op me trap).
(** process.rs:388-396, node_kernel.rs:49-53. *)
Definition exit (me : N) (p : pid) (why : exit_reason) : prog world unit :=
  if pid_is_local p then modify (exit_op p (PLocal me) why)
  else modify (send_frame (FExit (pid_id p) me why) (pid_node p)).

(** ** Links (link.rs) *)
(** :28-42 link_create with ignore_errors = false. *)
Definition link_create (p from : pid) : prog world bool :=
  let! e := observe (exists_proc (pid_id p)) in
  if (e : bool) then do! modify (add_link (pid_id p) from) in Ret true else Ret false.
(** :45-71 link_install. *)
Definition link_install (p from : pid) : prog world unit :=
  let! ok := link_create from p in
  if negb ok then Panic "From process must exist at this point!"
  else if pid_is_local p then
    let! ok := link_create p from in
    if (ok : bool) then Ret tt else modify (exit_linked_op from p (RCustom "noproc"))
  else
    let! n := observe (lookup_remote (pid_node p)) in
    match n with
    | Some (name, addr) =>
        do! modify (add_nlink (NRemote name addr) p (pid_id from)) in
        let! id := node_register (NRemote name addr) true in
        modify (send_frame (FLink true (pid_id p) (pid_id from)) id)
    | None => modify (exit_linked_op from p (RCustom "noconnection"))
    end.
(** :74-89 link_destroy. *)
Definition link_destroy (p from : pid) : prog world unit :=
  if pid_is_local p then modify (del_link (pid_id p) from)
  else
    do! modify (send_frame (FLink false (pid_id p) (pid_id from)) (pid_node p)) in
    let! n := observe (lookup_remote (pid_node p)) in
    match n with
    | Some (name, addr) => modify (del_nlinks (NRemote name addr) [(p, pid_id from)])
    | None => Ret tt
    end.
(** process.rs:298-317. *)
Definition link (me : N) (p : pid) : prog world unit :=
  if decide (p = PLocal me) then Ret tt else link_install p (PLocal me).
Definition unlink (me : N) (p : pid) : prog world unit :=
  if decide (p = PLocal me) then Ret tt else link_destroy p (PLocal me).
(** :92-124 link_process_down. *)
Definition link_process_down (from : pid) (why : exit_reason) : prog world unit :=
  let! ls := atom (fun w => (up_links (delete (pid_id from)) w, w_links w !! pid_id from)) in
  match ls with
  | None => Ret tt
  | Some ls =>
      let ps := sorted_pids ls in
      do! each (filter (fun p => pid_is_local p = true) ps) (fun p =>
            do! modify (del_link (pid_id p) from) in
            modify (exit_linked_op p from why)) in
      each (group pid_node (filter (fun p => pid_is_local p = false) ps)) (fun g =>
        let! n := observe (lookup_remote (fst g)) in
        do! match n with
            | Some (name, addr) =>
                modify (del_nlinks (NRemote name addr) (map (fun p => (p, pid_id from)) (snd g)))
            | None => Ret tt
            end in
        modify (send_frame (FLinkDown (map pid_id (snd g)) (pid_id from) why) (fst g)))
  end.

(** ** Monitors (monitor.rs) *)
(** :45-60 monitor_destroy. *)
Definition monitor_destroy (p : pid) (r : reference) : prog world unit :=
  if pid_is_local p then modify (del_mon (pid_id p) r)
  else
    do! modify (send_frame (FMonitor false (Some (pid_id p)) None None (ref_id r)) (ref_node r)) in
    let! n := observe (lookup_remote (ref_node r)) in
    match n with
    | Some (name, addr) => modify (del_nmon (NRemote name addr) r)
    | None => Ret tt
    end.
(** :63-93 monitor_destroy_all over the monitors a process has installed, in reference order. *)
Definition monitor_destroy_all (l : list (reference * pmonitor)) : prog world unit :=
  each l (fun x =>
    match snd x with
    | MForProcess None => Ret tt
    | MForProcess (Some p) =>
        do! (if pid_is_local p then modify (del_mon (pid_id p) (fst x))
             else modify (send_frame (FMonitor false (Some (pid_id p)) None None (ref_id (fst x)))
                                     (ref_node (fst x)))) in
        if ref_is_local (fst x) then do! alias_destroy (fst x) in Ret tt else Ret tt
    | MForNode nd =>
        do! modify (del_nmon nd (fst x)) in
        if ref_is_local (fst x) then do! alias_destroy (fst x) in Ret tt else Ret tt
    end).
(** :96-112 send_process_down in monitor_install: the caller's own sender. *)
Definition self_down (me : N) (d : dest) (r : reference) (why : string) : prog world unit :=
  do! modify (push me (IProcessDown d r (RCustom why))) in
  do! alias_destroy r in Ret tt.
(** :127-134, 178-184: the local half, after the monitor is in the caller's own table. *)
Definition monitor_local (me i : N) (r : reference) (d : dest) : prog world unit :=
  let! e := observe (exists_proc i) in
  if (e : bool) then modify (add_mon i r (PLocal me) (Some d)) else self_down me d r "noproc".
(** :140-151, 193-204. *)
Definition monitor_remote (me : N) (name : string) (addr : sockaddr) (r : reference) (d : dest)
    (id : option N) (nm : option string) : prog world unit :=
  do! modify (add_nmon (NRemote name addr) r (NMProcess me d)) in
  let! n := node_register (NRemote name addr) true in
  modify (send_frame (FMonitor true id nm (Some me) (ref_id r)) n).
(** :96-209 monitor_install. *)
Definition monitor_install (me : N) (d : dest) (r : reference) : prog world unit :=
  match d with
  | DPid p =>
      if decide (p = PLocal me) then Panic "Can not monitor yourself!"
      else
        do! own_monitor me r (MForProcess (Some p)) in
        if pid_is_local p then monitor_local me (pid_id p) r d
        else
          let! n := observe (lookup_remote (pid_node p)) in
          match n with
          | Some (name, addr) => monitor_remote me name addr r d (Some (pid_id p)) None
          | None => self_down me d r "noconnection"
          end
  | DNamed n NLocal =>
      let! i := name_lookup n in
      match i with
      | None => do! own_monitor me r (MForProcess None) in self_down me d r "noproc"
      | Some i => do! own_monitor me r (MForProcess (Some (PLocal i))) in monitor_local me i r d
      end
  | DNamed n (NRemote name addr) =>
      do! own_monitor me r (MForProcess None) in
      monitor_remote me name addr r d None (Some n)
  | DAlias _ => Panic "Can not monitor an alias!"
  end.
(** process.rs:320-351. *)
Definition monitor (me : N) (d : dest) : prog world reference :=
  let! r := fresh_ref in
  do! monitor_install me d r in Ret r.
Definition monitor_alias (me : N) (d : dest) (reply : bool) : prog world reference :=
  let! r := fresh_ref in
  do! modify (alias_create_op me r reply) in
  do! monitor_install me d r in Ret r.
(** The caller's own table entry, removed (process.rs:357-361, node.rs:171-175). *)
Definition take_monitor (me : N) (r : reference) : prog world (option pmonitor) :=
  atom (fun w => (up_loc (alter (upd_monitors (delete r)) me) w,
                  match w_loc w !! me with Some l => l_monitors l !! r | None => None end)).
(** process.rs:356-374. *)
Definition demonitor (me : N) (r : reference) : prog world unit :=
  let! m := take_monitor me r in
  match m with
  | None => Ret tt
  | Some (MForNode _) => Panic "Invalid process monitor reference!"
  | Some (MForProcess None) => Ret tt
  | Some (MForProcess (Some p)) =>
      do! monitor_destroy p r in
      do! alias_destroy r in Ret tt
  end.
(** :212-252 monitor_process_down. *)
Definition monitor_process_down (from : pid) (why : exit_reason) : prog world unit :=
  let! ms := atom (fun w => (up_mons (delete (pid_id from)) w, w_mons w !! pid_id from)) in
  match ms with
  | None => Ret tt
  | Some ms =>
      let l := sorted_refs ms in
      do! each l (fun x =>
            do! (if pid_is_local (fst (snd x)) then
                   match snd (snd x) with
                   | Some d => modify (send_to (pid_id (fst (snd x))) (IProcessDown d (fst x) why))
                   | None =>   (* dest.unwrap() inside the closure, run only if the sender exists *)
                       let! e := observe (exists_proc (pid_id (fst (snd x)))) in
                       if (e : bool) then Panic "called `Option::unwrap()` on a `None` value" else Ret tt
                   end
                 else Ret tt) in
            if ref_is_local (fst x) then do! alias_destroy (fst x) in Ret tt else Ret tt) in
      each (group (fun x => pid_node (fst (snd x)))
                  (filter (fun x => pid_is_local (fst (snd x)) = false) l)) (fun g =>
        let! n := observe (lookup_remote (fst g)) in
        do! match n with
            | Some (name, addr) => modify (del_nmons (NRemote name addr) (map fst (snd g)))
            | None => Ret tt
            end in
        modify (send_frame (FMonitorDown (map (fun x => ref_id (fst x)) (snd g)) why) (fst g)))
  end.

(** ** Info (process.rs:400-414, process_registry.rs:275-285, link.rs:127-133, monitor.rs:255-261) *)
Record info_t := Info {
  i_name : option string; i_len : nat; i_trap : bool; i_links : list pid; i_monitored_by : list pid }.
Definition info (p : pid) : prog world (option info_t) :=
  match p with
  | PRemote _ _ => Panic "Can't query information on a remote process!"
  | PLocal i =>
      let! r := observe (fun w => match w_regs w !! i with
                                  | Some r => Some (r, match w_loc w !! i with
                                                       | Some l => length (l_chan l) | None => 0 end)
                                  | None => None end) in
      match r with
      | None => Ret None
      | Some (r, n) =>
          let! ls := observe (fun w => match w_links w !! i with Some s => sorted_pids s | None => [] end) in
          let! ms := observe (fun w => match w_mons w !! i with
                                       | Some m => map (fun x => fst (snd x)) (sorted_refs m)
                                       | None => [] end) in
          Ret (Some (Info (r_name r) n (r_trap r) ls ms))
      end
  end.

(** ** The end of a process *)
Definition gone (me : N) (w : world) : world :=
  up_running (fun s => s ∖ {[me]}) (up_loc (delete me) w).
(** process.rs:417-434 Drop for Process; the process object (with its receiver) is gone last. *)
Definition drop_process (me : N) : prog world unit :=
  let! r := atom (fun w => (up_regs (delete me) w, w_regs w !! me)) in
  match r with
  | None =>    (* the unwrap panics; the fields of the object are dropped all the same *)
      do! modify (gone me) in Panic "called `Option::unwrap()` on a `None` value"
  | Some r =>
      do! match r_name r with Some n => modify (up_names (delete n)) | None => Ret tt end in
      let why := default RNormal (r_exit r) in
      do! link_process_down (PLocal me) why in
      do! monitor_process_down (PLocal me) why in
      let! l := observe (fun w => w_loc w !! me) in
      do! monitor_destroy_all (match l with Some l => sorted_refs (l_monitors l) | None => [] end) in
      do! alias_destroy_all (match l with Some l => sorted_ids (l_aliases l) | None => [] end) in
      modify (gone me)
  end.
(** process.rs:485-489: the body panicked with a payload that converts to [why]. *)
Definition crash (me : N) (why : exit_reason) : prog world unit :=
  do! modify (set_exit_op me why) in drop_process me.

(** ** Receiving *)
(** One attempt of a receive by [me] on its own mailbox (process_receiver.rs, Mailbox.v): scans up
    to the matching message or to the end of what has arrived. *)
Definition receive_op (S : serde) (me : N) (T : N) (f : message -> bool) (strict : bool) (w : world)
  : world * option sel :=
  match w_loc w !! me with
  | Some l => let '(s, l') := select S T f strict l in (up_loc (<[me := l']>) w, Some s)
  | None => (w, None)
  end.
Definition try_receive (S : serde) (me T : N) (f : message -> bool) (strict : bool) : prog world (option sel) :=
  atom (receive_op S me T f strict).
