(** Specification vocabulary for the node layer: losing a connection, and who supervises a node. *)
From stdpp Require Import base list gmap numbers strings countable sorting.
From Verif Require Import Prog Types Mailbox MailboxSpec World ProcApi NodeApi Api SchedSpec ProcSpec SendSpec.

(** The reason everyone is given. *)
Definition lost : exit_reason := RCustom "noconnection".

(** The links between processes of this node ([snd]) and processes of [nd] ([fst]). *)
Definition links_to (w : world) (nd : node) : gset (pid * N) := default ∅ (w_nlinks w !! nd).
(** The monitors concerning [nd]: by local processes on the node, by local processes on its processes,
    by its processes on local ones. *)
Definition monitors_to (w : world) (nd : node) : gmap reference nmonitor := default ∅ (w_nmons w !! nd).
(** The same, in the order in which they are served. *)
Definition link_order (x y : pid * N) : Prop := pid_le (fst x) (fst y) /\ (fst x <> fst y \/ (snd x <= snd y)%N).
Definition served_links (w : world) (nd : node) : list (pid * N) := merge_sort link_order (elements (links_to w nd)).

(** The exit messages for the local process [j]: one per link, if it traps exits. *)
Definition lost_links (w : world) (nd : node) (j : N) : list item :=
  match w_regs w !! j with
  | Some r => if r_trap r then map (fun x => ISystem (SExit (fst x) lost)) (filter (fun x => snd x = j) (served_links w nd))
              else []
  | None => []
  end.
(** The notice a monitor gives to process [j]. *)
Definition lost_notice (nd : node) (j : N) (x : reference * nmonitor) : option item :=
  match snd x with
  | NMNode i => if decide (i = j) then Some (INodeDown nd (fst x)) else None
  | NMProcess i d => if decide (i = j) then Some (IProcessDown d (fst x) lost) else None
  | NMCleanup _ => None
  end.
Definition lost_monitors (w : world) (nd : node) (j : N) : list item :=
  match w_regs w !! j with Some _ => omap (lost_notice nd j) (sorted_refs (monitors_to w nd)) | None => [] end.
(** Process [j] has a link to a process of [nd]. *)
Definition linked_to (w : world) (nd : node) (j : N) : Prop := exists p, (p, j) ∈ links_to w nd.

(** [sup] is the process whose connection to [nd] is on record (or none is), under id [id]. *)
Definition responsible (w : world) (nd : node) (sup : pid) (id : N) (r : nreg) : Prop :=
  w_nmap w !! nd = Some id /\ w_nregs w !! id = Some r /\ (n_sup r = None \/ n_sup r = Some sup).
(** A node that is known but not connected. *)
Definition unconnected (r : nreg) : nreg := NReg None None None Known (n_name r) (n_addr r).

Record connection_lost (w : world) (nd : node) (id : N) (r : nreg) (w' : world) : Prop := ConnectionLost {
  (* linked processes get a signal, and nobody else does *)
  cl_signalled : forall j, linked_to w nd j -> w_regs w' !! j = signalled lost <$> w_regs w !! j;
  cl_others : forall j, ~ linked_to w nd j -> w_regs w' !! j = w_regs w !! j;
  (* mailboxes *)
  cl_mail : forall j, w_loc w' !! j = after_arrival (lost_links w nd j ++ lost_monitors w nd j) <$> w_loc w !! j;
  (* the tables about this node are empty *)
  cl_nlinks : w_nlinks w' = delete nd (w_nlinks w);
  cl_nmons : w_nmons w' = delete nd (w_nmons w);
  cl_pend : w_pend w' = delete nd (w_pend w);
  (* the links and monitors concerned are gone from the tables of the local processes *)
  cl_links : forall j p, p ∈ default ∅ (w_links w' !! j) <-> p ∈ default ∅ (w_links w !! j) /\ (p, j) ∉ links_to w nd;
  cl_mons : forall j x, default ∅ (w_mons w' !! j) !! x =
              match monitors_to w nd !! x with
              | Some (NMCleanup i) => if decide (i = j) then None else default ∅ (w_mons w !! j) !! x
              | _ => default ∅ (w_mons w !! j) !! x
              end;
  cl_aliases : forall k, w_aliases w' !! k =
                 match monitors_to w nd !! RLocal k with Some _ => None | None => w_aliases w !! k end;
  (* the node stays known *)
  cl_nregs : w_nregs w' = <[id := unconnected r]> (w_nregs w);
  cl_nmap : w_nmap w' = w_nmap w;
  (* and nothing else *)
  cl_names : w_names w' = w_names w; cl_timers : w_timers w' = w_timers w; cl_tasks : w_tasks w' = w_tasks w;
  cl_running : w_running w' = w_running w; cl_out : w_out w' = w_out w; cl_now : w_now w' = w_now w;
  cl_next_pid : w_next_pid w' = w_next_pid w; cl_next_ref : w_next_ref w' = w_next_ref w;
  cl_next_node : w_next_node w' = w_next_node w }.

(** ** The end of a process, as other nodes are told about it *)
(** The remote processes in the link set of [a], on node [n]; those nodes. *)
Definition remote_links (w : world) (a : N) : list pid :=
  filter (fun p => pid_is_local p = false) (sorted_pids (default ∅ (w_links w !! a))).
Definition linked_on (w : world) (a n : N) : list N := map pid_id (filter (fun p => pid_node p = n) (remote_links w a)).
Definition nodes_linked (w : world) (a : N) : list N := sorted_ids (list_to_set (map pid_node (remote_links w a))).
(** The monitors on [a] by processes of node [n] (their references there); those nodes. *)
Definition remote_monitors (w : world) (a : N) : list (reference * (pid * option dest)) :=
  filter (fun x => pid_is_local (fst (snd x)) = false) (sorted_refs (default ∅ (w_mons w !! a))).
Definition monitored_from (w : world) (a n : N) : list N :=
  map (fun x => ref_id (fst x)) (filter (fun x => pid_node (fst (snd x)) = n) (remote_monitors w a)).
Definition nodes_monitoring (w : world) (a : N) : list N :=
  sorted_ids (list_to_set (map (fun x => pid_node (fst (snd x))) (remote_monitors w a))).
(** One LinkDown frame per node with linked processes, one MonitorDown frame per node with monitors. *)
Definition exit_frames (w : world) (a : N) (why : exit_reason) : list (N * frame) :=
  map (fun n => (n, FLinkDown (linked_on w a n) a why)) (nodes_linked w a) ++
  map (fun n => (n, FMonitorDown (monitored_from w a n) why)) (nodes_monitoring w a).
(** What it sends about the monitors it has on remote processes: addressed to the node of the
    reference, which is the local node. *)
Definition withdraw_frames (w : world) (a : N) : list (N * frame) :=
  match w_loc w !! a with
  | Some l => omap (fun x => match snd x with
                             | MForProcess (Some (PRemote i n)) =>
                                 Some (ref_node (fst x), FMonitor false (Some i) None None (ref_id (fst x)))
                             | _ => None
                             end) (sorted_refs (l_monitors l))
  | None => []
  end.
(** The world in which [a] is no longer registered: frames for a connection whose sender process is
    [a] itself go nowhere. *)
Definition without (a : N) (w : world) : world := up_regs (delete a) w.
(** The frames that [w'] has and [w] has not: [fs], each in the channel of its node. *)
Definition emits (wc : world) (fs : list (N * frame)) (w w' : world) : Prop :=
  forall c, queued w' c = queued w c ++ map snd (filter (fun f => channel_of wc (fst f) = Some c) fs).

(** Calls that leave the monitor [k] of [me] on (a process of) node [nd] alone: [me] goes on and does
    not remove it, the connection is not lost, and the node does not report the end of the process. *)
Definition leaves_remote_monitor (k me : N) (nd : node) (c : call) : Prop :=
  match c with
  | CFinish i | CCrash i _ => i <> me
  | CDemonitor i r | CNodeDemonitor i r => ~ (i = me /\ r = RLocal k)
  | CSupDown nd' _ => nd' <> nd
  | CFrame nd' _ (FMonitorDown rs _) => ~ (nd' = nd /\ k ∈ rs)
  | _ => True
  end.
(** A list without its repetitions. *)
Fixpoint firsts (l : list N) : list N :=
  match l with [] => [] | x :: l => x :: filter (fun y => y <> x) (firsts l) end.
(** Calls that leave the link between the local process [me] and process [i] of node [nd] alone. *)
Definition leaves_remote_link (me i : N) (nd : node) (c : call) : Prop :=
  match c with
  | CFinish j | CCrash j _ => j <> me
  | CUnlink j p => ~ (j = me /\ pid_id p = i /\ pid_is_local p = false)
  | CSupDown nd' _ => nd' <> nd
  | CFrame nd' _ (FLink false p from) => ~ (nd' = nd /\ p = me /\ from = i)
  | CFrame nd' _ (FLinkDown ls from _) => ~ (nd' = nd /\ me ∈ ls /\ from = i)
  | _ => True
  end.

(** ** Who is connected to whom *)
(** What is on record about a node. *)
Definition entry (w : world) (nd : node) : option nreg :=
  match w_nmap w !! nd with Some id => w_nregs w !! id | None => None end.
(** [p] is the process of the connection to [nd]; [p] is still trying to connect to [nd]. *)
Definition established (w : world) (nd : node) (p : pid) : Prop :=
  exists r, entry w nd = Some r /\ n_sup r = Some p /\ n_state r <> Pending.
Definition dialling (w : world) (nd : node) (p : pid) : Prop :=
  exists r, entry w nd = Some r /\ n_sup r = Some p /\ n_state r = Pending.
(** Calls and events that do not end the connection of process [me] to [nd]. *)
Definition keeps_connection (nd : node) (me : N) (c : call) : Prop :=
  match c with
  | CSupDown nd' p => ~ (nd' = nd /\ p = PLocal me)
  | CDisconnect _ nd' | CForget _ nd' => nd' <> nd
  | CNodeStop _ | CLocalPanic => False
  | _ => True
  end.
(** A state reached from the fresh node by calls that do not overlap, each made by a process that runs;
    the ends of connections concern remote nodes. *)
Definition remote_events (c : call) : Prop := match c with CSupDown NLocal _ => False | _ => True end.
Definition proper (S : serde) (w : world) : Prop :=
  exists cs, history S (fun c w => made_by_running c w /\ remote_events c) world0 cs w.
