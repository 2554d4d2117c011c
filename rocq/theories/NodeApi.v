(** Model of the node API and of what a node does with incoming frames: hydra/src/node.rs,
    node_registry.rs, node_remote.rs (receiver, supervisor), node_kernel.rs, pid.rs / reference.rs
    wire conversions.  No proofs in this file.

    Not modelled: sockets and heartbeats (a lost connection is the event [supervisor_down]); the
    guards of NODE_MAP / NODE_REGISTRATIONS that node_remote_supervisor_down keeps while it
    notifies (here other calls may interleave: more schedules than the code has). *)
From stdpp Require Import base list gmap numbers strings countable sorting.
From Verif Require Import Prog Types Mailbox World ProcApi.

(** ** node_registry.rs *)
(** :77-79 node_alive. *)
Definition node_alive : prog world bool := observe (fun w => bool_decide (is_Some (w_nmap w !! NLocal))).
(** :82-102 node_local_start (the entry lock of NODE_MAP is held to the end; the supervisor's task
    is the one spawn_op makes). *)
Definition node_start_op (name : string) (addr : sockaddr) (w : world) : world * option pid :=
  match w_nmap w !! NLocal with
  | Some _ => (w, None)
  | None => let '(w, s) := spawn_op w in
            (up_nmap (<[NLocal := LOCAL_NODE_ID]>)
               (up_nregs (<[LOCAL_NODE_ID := new_nreg (Some s) Current name addr]>) w), Some s)
  end.
Definition node_start (name : string) (addr : sockaddr) : prog world pid :=
  let! s := atom (node_start_op name addr) in
  match s with Some s => Ret s | None => Panic "Local node already started!" end.
(** :105-120 node_local_stop. *)
Definition node_stop (me : N) : prog world unit :=
  let! x := atom (fun w => (up_nmap (delete NLocal) w, w_nmap w !! NLocal)) in
  match x with
  | None => Panic "Local node not started!"
  | Some _ =>
      do! modify (up_nmap (fun _ => ∅)) in
      do! modify (fun w => match w_nregs w !! LOCAL_NODE_ID with
                           | Some r => match n_sup r with
                                       | Some s => exit_op s (PLocal me) RKill w
                                       | None => w end
                           | None => w end) in
      do! modify (up_nregs (fun _ => ∅)) in
      modify (up_pend (fun _ => ∅))
  end.
(** :123-127 node_local_panic. *)
Definition node_local_panic : prog world unit :=
  do! modify (up_nmap (fun _ => ∅)) in
  do! modify (up_nregs (fun _ => ∅)) in
  modify (up_pend (fun _ => ∅)).
(** :345-370 node_list, node_list_filtered (the iteration is taken as one step). *)
Definition node_list : prog world (list node) :=
  observe (fun w => filter (fun n => n <> NLocal) (map fst (map_to_list (w_nmap w)))).
Definition node_list_by (st : node_state) : prog world (list node) :=
  observe (fun w => map (fun x => NRemote (n_name (snd x)) (n_addr (snd x)))
                        (filter (fun x => n_state (snd x) = st) (map_to_list (w_nregs w)))).
(** :391-405 node_forget. *)
Definition node_forget (me : N) (nd : node) : prog world unit :=
  let! id := atom (fun w => (up_nmap (delete nd) w, w_nmap w !! nd)) in
  match id with
  | None => Ret tt
  | Some id =>
      let! r := atom (fun w => (up_nregs (delete id) w, w_nregs w !! id)) in
      match r with
      | None => Ret tt
      | Some r =>
          do! modify (up_pend (delete nd)) in
          match n_sup r with
          | Some s => exit me s RKill
          | None => Ret tt
          end
      end
  end.
(** :282-342 node_remote_supervisor_down. *)
Definition supervisor_down (nd : node) (process : pid) : prog world unit :=
  let! mine := atom (sup_down_op nd process) in
  if negb mine then Ret tt
  else
    let! ls := atom (fun w => (up_nlinks (delete nd) w, w_nlinks w !! nd)) in
    do! each (merge_sort (fun x y => pid_le (fst x) (fst y) /\ (fst x <> fst y \/ (snd x <= snd y)%N))
                         (elements (default ∅ ls))) (fun x =>
          do! link_destroy (PLocal (snd x)) (fst x) in
          modify (exit_linked_op (PLocal (snd x)) (fst x) (RCustom "noconnection"))) in
    let! ms := atom (fun w => (up_nmons (delete nd) w, w_nmons w !! nd)) in
    do! each (sorted_refs (default ∅ ms)) (fun x =>
          do! match snd x with
              | NMNode i => modify (send_to i (INodeDown nd (fst x)))
              | NMProcess i d => modify (send_to i (IProcessDown d (fst x) (RCustom "noconnection")))
              | NMCleanup i => monitor_destroy (PLocal i) (fst x)
              end in
          if ref_is_local (fst x) then do! alias_destroy (fst x) in Ret tt else Ret tt) in
    modify (up_pend (delete nd)).
(** :506-526 node_process_monitor_down. *)
Definition node_process_monitor_down (nd : node) (r : reference) (why : exit_reason) : prog world unit :=
  let! m := atom (fun w => (del_nmon nd r w, match w_nmons w !! nd with Some t => t !! r | None => None end)) in
  do! alias_destroy r in
  match m with
  | Some (NMProcess i d) => modify (send_to i (IProcessDown d r why))
  | _ => Ret tt
  end.
(** :529-540 node_process_link_down. *)
Definition node_process_link_down (nd : node) (p from : pid) (why : exit_reason) : prog world unit :=
  let! found := atom (fun w => (del_nlinks nd [(from, pid_id p)] w,
                                bool_decide ((from, pid_id p) ∈ default ∅ (w_nlinks w !! nd)))) in
  if (found : bool) then modify (exit_linked_op p from why) else Ret tt.

(** ** node.rs *)
(** :79-111. *)
Definition node_connect (nd : node) : prog world unit :=
  match nd with
  | NLocal => Panic "Can't connect to self!"
  | NRemote _ _ => do! node_register nd true in Ret tt
  end.
Definition node_disconnect (me : N) (nd : node) : prog world unit :=
  match nd with
  | NLocal => Panic "Can't disconnect from self!"
  | NRemote _ _ => modify (node_disconnect_op nd (PLocal me))
  end.
Definition forget (me : N) (nd : node) : prog world unit :=
  match nd with
  | NLocal => Panic "Can't forget from self!"
  | NRemote _ _ => node_forget me nd
  end.
(** :146-182. *)
Definition node_monitor (me : N) (nd : node) : prog world reference :=
  match nd with
  | NLocal => Panic "Can't monitor self!"
  | NRemote _ _ =>
      let! r := fresh_ref in
      do! own_monitor me r (MForNode nd) in
      do! modify (add_nmon nd r (NMNode me)) in
      do! node_register nd true in
      Ret r
  end.
Definition node_demonitor (me : N) (r : reference) : prog world unit :=
  let! m := take_monitor me r in
  match m with
  | None => Ret tt
  | Some (MForProcess _) => Panic "Invalid node monitor reference!"
  | Some (MForNode nd) => modify (del_nmon nd r)
  end.

(** ** node_remote.rs *)
(** :294-303 node_remote_supervisor from the accepted hello to the registered workers; [me] is the
    supervisor process (Process::link(self) at :294 does nothing). *)
Definition remote_supervisor (me : N) (name : string) (addr : sockaddr) : prog world (pid * pid) :=
  let! ok := atom (node_accept_op name addr (PLocal me) (PLocal me)) in
  if negb ok then Panic "Not accepting node supervisor!"
  else
    let! s := spawn me true false in
    let! r := spawn me true false in
    do! modify (node_workers_op (NRemote name addr) (fst s) (fst r)) in
    Ret (fst s, fst r).
(** node_kernel.rs:20-46 node_forward_send. *)
Definition target_dest (t : send_target) : dest :=
  match t with
  | TPid i => DPid (PLocal i)
  | TNamed n => DNamed n NLocal
  | TAlias i => DAlias (RLocal i)
  end.
Definition forward_send (ts : list send_target) (m : bytes) : prog world unit :=
  each ts (fun t => deliver (target_dest t) (IUserRemote m)).
(** :158-212 the Monitor frame.  A frame that asks for a removal without a from_id panics at the
    .expect (:161-163). *)
Definition on_monitor (nd : node) (n : N) (install : bool) (pid_ : option N) (name : option string)
    (from_id : option N) (ref_ : N) : prog world unit :=
  match from_id with
  | None => Panic "Must have a from_id for remote monitors!"
  | Some f =>
      let from := PRemote f n in
      let r := RRemote ref_ n in
      if install then
        match pid_, name with
        | Some i, _ =>
            let! e := observe (exists_proc i) in
            if (e : bool) then
              do! modify (add_mon i r from None) in
              modify (add_nmon nd r (NMCleanup i))
            else modify (send_frame (FMonitorDown [ref_] (RCustom "noproc")) n)
        | None, Some s =>
            let! i := name_lookup s in
            match i with
            | Some i =>
                do! modify (add_mon i r from None) in
                do! modify (send_frame (FMonitorUpdate f i ref_) n) in
                modify (add_nmon nd r (NMCleanup i))
            | None => modify (send_frame (FMonitorDown [ref_] (RCustom "noproc")) n)
            end
        | None, None => Panic "Must have either a process id or process name for monitor!"
        end
      else
        match pid_ with
        | Some i =>
            do! monitor_destroy (PLocal i) r in
            modify (del_nmon nd r)
        | None => Panic "called `Option::unwrap()` on a `None` value"
        end
  end.
(** :231-253 the Link frame. *)
Definition on_link (nd : node) (n : N) (install : bool) (p f : N) : prog world unit :=
  let from := PRemote f n in
  if install then
    let! ok := link_create (PLocal p) from in
    if (ok : bool) then modify (add_nlink nd from p)
    else modify (send_frame (FLinkDown [f] p (RCustom "noproc")) n)
  else
    do! link_destroy (PLocal p) from in
    modify (del_nlinks nd [(from, p)]).
(** :147-276 node_remote_receiver: one incoming frame of the connection to [nd] supervised by
    [sup].  SendPong (:149-151) makes the supervisor send a Pong frame (modelled in Heart.v). *)
Definition receive_frame (nd : node) (sup : pid) (f : frame) : prog world unit :=
  match f with
  | FHello _ _ _ => Panic "Should never receive hello frame!"
  | FPing => Ret tt    (* SendPong: see Heart.v *)
  | FPong => Ret tt
  | FSend ts m => forward_send ts m
  | FMonitor install p name from r =>
      let! n := node_register nd false in on_monitor nd n install p name from r
  | FMonitorDown rs why =>
      each rs (fun r => node_process_monitor_down nd (RLocal r) why)
  | FMonitorUpdate p from r =>
      let! n := node_register nd false in
      modify (send_to p (IProcessUpdate (RLocal r) (PRemote from n)))
  | FLink install p from =>
      let! n := node_register nd false in on_link nd n install p from
  | FLinkDown ls from why =>
      let! n := node_register nd false in
      each ls (fun l => node_process_link_down nd (PLocal l) (PRemote from n) why)
  | FExit p from why =>
      let! n := node_register nd false in
      modify (exit_op (PLocal p) (PRemote from n) why)
  end.
