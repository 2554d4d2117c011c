(** Model of hydra's shared state: the process registry, names, timers, links, monitors, aliases
    and the node tables, with the atomic operations on them.  No proofs in this file.

    Granularity: one definition below = one DashMap/atomic/channel operation, or one section that
    holds the entry lock of the table it decides on (as said in its comment).  Ids are unbounded.
    A flume sender is identified with the process whose receiver it feeds; sending to a process
    whose [Process] object has been dropped has no effect, as flume's send then fails and hydra
    ignores the error.

    Files: process_registry.rs, process_registration.rs, link.rs, monitor.rs, alias.rs,
    node_registry.rs, node_registration.rs, node_state.rs, process.rs. *)
From stdpp Require Import base list gmap numbers strings countable sorting.
From Verif Require Import Prog Types Mailbox.

(** process_registration.rs:8-31.  [r_abort]: JoinHandle::abort has been called. *)
Record registration := Reg {
  r_name : option string; r_trap : bool; r_exit : option exit_reason; r_abort : bool }.
Definition new_reg : registration := Reg None false None false.
(** node_state.rs:6-15. *)
Inductive node_state := Current | Known | Connected | Pending.
Global Instance node_state_eq_dec : EqDecision node_state. Proof. solve_decision. Defined.
(** node_registration.rs:7-39. *)
Record nreg := NReg {
  n_sup : option pid; n_sender : option pid; n_receiver : option pid;
  n_state : node_state; n_name : string; n_addr : sockaddr }.
Definition new_nreg (sup : option pid) (st : node_state) (name : string) (addr : sockaddr) : nreg :=
  NReg sup None None st name addr.
(** node_registry.rs:43-50. *)
Inductive nmonitor := NMNode (id : N) | NMProcess (id : N) (d : dest) | NMCleanup (id : N).
(** The task of a send_after (process.rs:177-182): when it is due, what it will send; [t_live]:
    neither finished nor aborted. *)
Record task := Task { t_due : N; t_dests : dests; t_val : value; t_live : bool }.

Record world := World {
  w_next_pid : N;  (* process.rs:443 ID *)
  w_next_ref : N;  (* reference.rs:35 REF *)
  w_next_node : N;  (* node_registry.rs:74 NODE_ID *)
  w_regs : gmap N registration;  (* process_registry.rs:23 PROCESS_REGISTRY *)
  w_names : gmap string N;  (* process_registry.rs:25 PROCESS_NAMES *)
  w_timers : gmap N N;  (* process_registry.rs:27 PROCESS_TIMERS: deadline (the JoinHandle is the task of the same reference) *)
  w_tasks : gmap N task;  (* the tokio tasks of send_after (process.rs:177-182) *)
  w_links : gmap N (gset pid);  (* link.rs:25 LINKS *)
  w_mons : gmap N (gmap reference (pid * option dest));  (* monitor.rs:33 MONITORS *)
  w_aliases : gmap N (N * bool);  (* alias.rs:10 ALIASES: owner of the sender, one-shot flag *)
  w_loc : gmap N plocal;  (* the Process objects (process.rs:69-82) that have not been dropped *)
  w_running : gset N;  (* processes whose task has been handed to tokio (process.rs:485) *)
  w_nmap : gmap node N;  (* node_registry.rs:58 NODE_MAP *)
  w_nregs : gmap N nreg;  (* node_registry.rs:55 NODE_REGISTRATIONS *)
  w_nmons : gmap node (gmap reference nmonitor);  (* node_registry.rs:61 NODE_MONITORS *)
  w_nlinks : gmap node (gset (pid * N));  (* node_registry.rs:65 NODE_LINKS *)
  w_pend : gmap node (list frame);  (* node_registry.rs:68 NODE_PENDING_MESSAGES *)
  w_out : gmap N (list frame);  (* per sender process: the frames handed to it (node_remote.rs:61-66), oldest first *)
  w_now : N;  (* the clock (Instant::now) *)
  w_log : list (N * item);  (* ghost: every item put into a mailbox, in order (owner, item) *)
}.
Definition up_next_pid (f : N -> N) (w : world) : world :=
  World (f (w_next_pid w)) (w_next_ref w) (w_next_node w) (w_regs w) (w_names w) (w_timers w) (w_tasks w) (w_links w) (w_mons w) (w_aliases w) (w_loc w) (w_running w) (w_nmap w) (w_nregs w) (w_nmons w) (w_nlinks w) (w_pend w) (w_out w) (w_now w) (w_log w).
Definition up_next_ref (f : N -> N) (w : world) : world :=
  World (w_next_pid w) (f (w_next_ref w)) (w_next_node w) (w_regs w) (w_names w) (w_timers w) (w_tasks w) (w_links w) (w_mons w) (w_aliases w) (w_loc w) (w_running w) (w_nmap w) (w_nregs w) (w_nmons w) (w_nlinks w) (w_pend w) (w_out w) (w_now w) (w_log w).
Definition up_next_node (f : N -> N) (w : world) : world :=
  World (w_next_pid w) (w_next_ref w) (f (w_next_node w)) (w_regs w) (w_names w) (w_timers w) (w_tasks w) (w_links w) (w_mons w) (w_aliases w) (w_loc w) (w_running w) (w_nmap w) (w_nregs w) (w_nmons w) (w_nlinks w) (w_pend w) (w_out w) (w_now w) (w_log w).
Definition up_regs (f : (gmap N registration) -> (gmap N registration)) (w : world) : world :=
  World (w_next_pid w) (w_next_ref w) (w_next_node w) (f (w_regs w)) (w_names w) (w_timers w) (w_tasks w) (w_links w) (w_mons w) (w_aliases w) (w_loc w) (w_running w) (w_nmap w) (w_nregs w) (w_nmons w) (w_nlinks w) (w_pend w) (w_out w) (w_now w) (w_log w).
Definition up_names (f : (gmap string N) -> (gmap string N)) (w : world) : world :=
  World (w_next_pid w) (w_next_ref w) (w_next_node w) (w_regs w) (f (w_names w)) (w_timers w) (w_tasks w) (w_links w) (w_mons w) (w_aliases w) (w_loc w) (w_running w) (w_nmap w) (w_nregs w) (w_nmons w) (w_nlinks w) (w_pend w) (w_out w) (w_now w) (w_log w).
Definition up_timers (f : (gmap N N) -> (gmap N N)) (w : world) : world :=
  World (w_next_pid w) (w_next_ref w) (w_next_node w) (w_regs w) (w_names w) (f (w_timers w)) (w_tasks w) (w_links w) (w_mons w) (w_aliases w) (w_loc w) (w_running w) (w_nmap w) (w_nregs w) (w_nmons w) (w_nlinks w) (w_pend w) (w_out w) (w_now w) (w_log w).
Definition up_tasks (f : (gmap N task) -> (gmap N task)) (w : world) : world :=
  World (w_next_pid w) (w_next_ref w) (w_next_node w) (w_regs w) (w_names w) (w_timers w) (f (w_tasks w)) (w_links w) (w_mons w) (w_aliases w) (w_loc w) (w_running w) (w_nmap w) (w_nregs w) (w_nmons w) (w_nlinks w) (w_pend w) (w_out w) (w_now w) (w_log w).
Definition up_links (f : (gmap N (gset pid)) -> (gmap N (gset pid))) (w : world) : world :=
  World (w_next_pid w) (w_next_ref w) (w_next_node w) (w_regs w) (w_names w) (w_timers w) (w_tasks w) (f (w_links w)) (w_mons w) (w_aliases w) (w_loc w) (w_running w) (w_nmap w) (w_nregs w) (w_nmons w) (w_nlinks w) (w_pend w) (w_out w) (w_now w) (w_log w).
Definition up_mons (f : (gmap N (gmap reference (pid * option dest))) -> (gmap N (gmap reference (pid * option dest)))) (w : world) : world :=
  World (w_next_pid w) (w_next_ref w) (w_next_node w) (w_regs w) (w_names w) (w_timers w) (w_tasks w) (w_links w) (f (w_mons w)) (w_aliases w) (w_loc w) (w_running w) (w_nmap w) (w_nregs w) (w_nmons w) (w_nlinks w) (w_pend w) (w_out w) (w_now w) (w_log w).
Definition up_aliases (f : (gmap N (N * bool)) -> (gmap N (N * bool))) (w : world) : world :=
  World (w_next_pid w) (w_next_ref w) (w_next_node w) (w_regs w) (w_names w) (w_timers w) (w_tasks w) (w_links w) (w_mons w) (f (w_aliases w)) (w_loc w) (w_running w) (w_nmap w) (w_nregs w) (w_nmons w) (w_nlinks w) (w_pend w) (w_out w) (w_now w) (w_log w).
Definition up_loc (f : (gmap N plocal) -> (gmap N plocal)) (w : world) : world :=
  World (w_next_pid w) (w_next_ref w) (w_next_node w) (w_regs w) (w_names w) (w_timers w) (w_tasks w) (w_links w) (w_mons w) (w_aliases w) (f (w_loc w)) (w_running w) (w_nmap w) (w_nregs w) (w_nmons w) (w_nlinks w) (w_pend w) (w_out w) (w_now w) (w_log w).
Definition up_running (f : (gset N) -> (gset N)) (w : world) : world :=
  World (w_next_pid w) (w_next_ref w) (w_next_node w) (w_regs w) (w_names w) (w_timers w) (w_tasks w) (w_links w) (w_mons w) (w_aliases w) (w_loc w) (f (w_running w)) (w_nmap w) (w_nregs w) (w_nmons w) (w_nlinks w) (w_pend w) (w_out w) (w_now w) (w_log w).
Definition up_nmap (f : (gmap node N) -> (gmap node N)) (w : world) : world :=
  World (w_next_pid w) (w_next_ref w) (w_next_node w) (w_regs w) (w_names w) (w_timers w) (w_tasks w) (w_links w) (w_mons w) (w_aliases w) (w_loc w) (w_running w) (f (w_nmap w)) (w_nregs w) (w_nmons w) (w_nlinks w) (w_pend w) (w_out w) (w_now w) (w_log w).
Definition up_nregs (f : (gmap N nreg) -> (gmap N nreg)) (w : world) : world :=
  World (w_next_pid w) (w_next_ref w) (w_next_node w) (w_regs w) (w_names w) (w_timers w) (w_tasks w) (w_links w) (w_mons w) (w_aliases w) (w_loc w) (w_running w) (w_nmap w) (f (w_nregs w)) (w_nmons w) (w_nlinks w) (w_pend w) (w_out w) (w_now w) (w_log w).
Definition up_nmons (f : (gmap node (gmap reference nmonitor)) -> (gmap node (gmap reference nmonitor))) (w : world) : world :=
  World (w_next_pid w) (w_next_ref w) (w_next_node w) (w_regs w) (w_names w) (w_timers w) (w_tasks w) (w_links w) (w_mons w) (w_aliases w) (w_loc w) (w_running w) (w_nmap w) (w_nregs w) (f (w_nmons w)) (w_nlinks w) (w_pend w) (w_out w) (w_now w) (w_log w).
Definition up_nlinks (f : (gmap node (gset (pid * N))) -> (gmap node (gset (pid * N)))) (w : world) : world :=
  World (w_next_pid w) (w_next_ref w) (w_next_node w) (w_regs w) (w_names w) (w_timers w) (w_tasks w) (w_links w) (w_mons w) (w_aliases w) (w_loc w) (w_running w) (w_nmap w) (w_nregs w) (w_nmons w) (f (w_nlinks w)) (w_pend w) (w_out w) (w_now w) (w_log w).
Definition up_pend (f : (gmap node (list frame)) -> (gmap node (list frame))) (w : world) : world :=
  World (w_next_pid w) (w_next_ref w) (w_next_node w) (w_regs w) (w_names w) (w_timers w) (w_tasks w) (w_links w) (w_mons w) (w_aliases w) (w_loc w) (w_running w) (w_nmap w) (w_nregs w) (w_nmons w) (w_nlinks w) (f (w_pend w)) (w_out w) (w_now w) (w_log w).
Definition up_out (f : (gmap N (list frame)) -> (gmap N (list frame))) (w : world) : world :=
  World (w_next_pid w) (w_next_ref w) (w_next_node w) (w_regs w) (w_names w) (w_timers w) (w_tasks w) (w_links w) (w_mons w) (w_aliases w) (w_loc w) (w_running w) (w_nmap w) (w_nregs w) (w_nmons w) (w_nlinks w) (w_pend w) (f (w_out w)) (w_now w) (w_log w).
Definition up_now (f : N -> N) (w : world) : world :=
  World (w_next_pid w) (w_next_ref w) (w_next_node w) (w_regs w) (w_names w) (w_timers w) (w_tasks w) (w_links w) (w_mons w) (w_aliases w) (w_loc w) (w_running w) (w_nmap w) (w_nregs w) (w_nmons w) (w_nlinks w) (w_pend w) (w_out w) (f (w_now w)) (w_log w).
Definition up_log (f : (list (N * item)) -> (list (N * item))) (w : world) : world :=
  World (w_next_pid w) (w_next_ref w) (w_next_node w) (w_regs w) (w_names w) (w_timers w) (w_tasks w) (w_links w) (w_mons w) (w_aliases w) (w_loc w) (w_running w) (w_nmap w) (w_nregs w) (w_nmons w) (w_nlinks w) (w_pend w) (w_out w) (w_now w) (f (w_log w)).
Definition world0 : world :=
  World 1 1 1 ∅ ∅ ∅ ∅ ∅ ∅ ∅ ∅ ∅ ∅ ∅ ∅ ∅ ∅ ∅ 0 [].

(** ** Orders: BTreeSet<Pid>, BTreeMap<Reference, _> and BTreeMap<u64, _> iterate in the derived
    order (variant, then id, then node; pid.rs:21, reference.rs:26). *)
Definition pid_le (p q : pid) : Prop :=
  match p, q with
  | PLocal i, PLocal j => (i <= j)%N
  | PLocal _, PRemote _ _ => True
  | PRemote _ _, PLocal _ => False
  | PRemote i n, PRemote j m => (i < j)%N \/ i = j /\ (n <= m)%N
  end.
Definition ref_le (p q : reference) : Prop :=
  match p, q with
  | RLocal i, RLocal j => (i <= j)%N
  | RLocal _, RRemote _ _ => True
  | RRemote _ _, RLocal _ => False
  | RRemote i n, RRemote j m => (i < j)%N \/ i = j /\ (n <= m)%N
  end.
Global Instance pid_le_dec p q : Decision (pid_le p q).
Proof. destruct p, q; cbn; apply _. Defined.
Global Instance ref_le_dec p q : Decision (ref_le p q).
Proof. destruct p, q; cbn; apply _. Defined.
Definition sorted_pids (s : gset pid) : list pid := merge_sort pid_le (elements s).
Definition sorted_refs {A} (m : gmap reference A) : list (reference * A) :=
  merge_sort (fun x y => ref_le (fst x) (fst y)) (map_to_list m).
Definition sorted_ids (s : gset N) : list N := merge_sort N.le (elements s).
(** Grouping into a BTreeMap<u64, Vec<A>> keyed by node id: per node, in insertion order. *)
Definition group {A} (key : A -> N) (l : list A) : list (N * list A) :=
  map (fun n => (n, filter (fun a => key a = n) l)) (sorted_ids (list_to_set (map key l))).

(** ** Channels *)
(** flume send into the channel of process [i]. *)
Definition push (i : N) (x : item) (w : world) : world :=
  match w_loc w !! i with
  | Some l => up_log (fun g => g ++ [(i, x)]) (up_loc (<[i := set_chan (l_chan l ++ [x]) l]>) w)
  | None => w
  end.
(** process_registry.rs:48-52 process_sender, and a send on the result if there is one. *)
Definition send_to (i : N) (x : item) (w : world) : world :=
  match w_regs w !! i with Some _ => push i x w | None => w end.

(** ** process_registry.rs *)
(** :33 the test of process_exists_lock (the guard is a temporary and is released before the
    callback runs). *)
Definition exists_proc (i : N) (w : world) : bool := bool_decide (is_Some (w_regs w !! i)).
(** :84-133 process_register: the entry lock on the name is held over the update of the process'
    registration and the insertion, so the call is atomic for every other name operation. *)
Definition register_op (p : pid) (name : string) (w : world) : world * option string :=
  match p with
  | PRemote _ _ => (w, Some "Expected local pid for register!")
  | PLocal i =>
      match w_names w !! name with
      | Some j => if decide (j = i) then (w, None)
                  else (w, Some "Name registered to another process!")
      | None =>
          match w_regs w !! i with
          | None => (w, Some "Process does not exist!")
          | Some r =>
              match r_name r with
              | Some _ => (w, Some "Process was already registered!")
              | None =>
                  (up_names (<[name := i]>)
                     (up_regs (<[i := Reg (Some name) (r_trap r) (r_exit r) (r_abort r)]>) w), None)
              end
          end
      end
  end.
(** :148-189 process_exit (one PROCESS_REGISTRY.alter). *)
Definition exit_op (p from : pid) (why : exit_reason) (w : world) : world :=
  match w_regs w !! pid_id p with
  | None => w
  | Some r =>
      let die := up_regs (<[pid_id p := Reg (r_name r) (r_trap r) (Some why) true]>) w in
      let tell := push (pid_id p) (ISystem (SExit from why)) w in
      match why with
      | RNormal | RIgnore => if decide (p = from) then die else if r_trap r then tell else w
      | RKill => die
      | RCustom _ => if decide (p = from) then die else if r_trap r then tell else die
      end
  end.
(** :192-209 process_exit_signal_linked. *)
Definition exit_linked_op (p from : pid) (why : exit_reason) (w : world) : world :=
  match w_regs w !! pid_id p with
  | None => w
  | Some r =>
      if r_trap r then push (pid_id p) (ISystem (SExit from why)) w
      else match why with
           | RNormal => w
           | _ => up_regs (<[pid_id p := Reg (r_name r) (r_trap r) (Some why) true]>) w
           end
  end.
(** :217-222, :225-230. *)
Definition set_flags_op (i : N) (trap : bool) : world -> world :=
  up_regs (alter (fun r => Reg (r_name r) trap (r_exit r) (r_abort r)) i).
Definition set_exit_op (i : N) (why : exit_reason) : world -> world :=
  up_regs (alter (fun r => Reg (r_name r) (r_trap r) (Some why) (r_abort r)) i).

(** ** link.rs, monitor.rs, alias.rs: table updates *)
(** link.rs:30, 36 [entry().or_default().insert()]. *)
Definition add_link (i : N) (p : pid) : world -> world :=
  up_links (fun m => <[i := {[p]} ∪ default ∅ (m !! i)]> m).
(** link.rs:76-79, 101-104. *)
Definition del_link (i : N) (p : pid) : world -> world := up_links (alter (fun s => s ∖ {[p]}) i).
(** monitor.rs:37-42 monitor_create. *)
Definition add_mon (i : N) (r : reference) (from : pid) (d : option dest) : world -> world :=
  up_mons (fun m => <[i := <[r := (from, d)]> (default ∅ (m !! i))]> m).
(** monitor.rs:47-50, 74-77. *)
Definition del_mon (i : N) (r : reference) : world -> world := up_mons (alter (delete r) i).
(** alias.rs:22-29. *)
Definition alias_create_op (owner : N) (r : reference) (reply : bool) : world -> world :=
  up_aliases (<[ref_id r := (owner, reply)]>).
Definition alias_destroy_op (r : reference) (w : world) : world * bool :=
  (up_aliases (delete (ref_id r)) w, bool_decide (is_Some (w_aliases w !! ref_id r))).

(** ** node_registry.rs *)
(** Process::send(sender, SendFrame(s)) to a node's sender process. *)
Definition hand_out (s : pid) (fs : list frame) (w : world) : world :=
  match w_regs w !! pid_id s with
  | Some _ => up_out (fun m => <[pid_id s := default [] (m !! pid_id s) ++ fs]> m) w
  | None => w
  end.
(** :163-182 node_send_frame: the registration's guard is held to the end. *)
Definition send_frame (f : frame) (id : N) (w : world) : world :=
  match w_nregs w !! id with
  | None => w
  | Some r =>
      match n_sender r with
      | Some s => hand_out s [f] w
      | None => match n_state r with
                | Known => w
                | _ => up_pend (fun m => let k := NRemote (n_name r) (n_addr r) in
                                         <[k := default [] (m !! k) ++ [f]]> m) w
                end
      end
  end.
(** Process::spawn of a connector inside node_register: with the entry lock of NODE_MAP held the
    new task cannot get past its first access to it, so allocation, start and registration of the
    process are one step here. *)
Definition spawn_op (w : world) : world * pid :=
  let i := w_next_pid w in
  (up_regs (<[i := new_reg]>)
     (up_running (fun s => {[i]} ∪ s)
        (up_loc (<[i := new_plocal]>) (up_next_pid N.succ w))), PLocal i).
(** :233-279 node_register for a remote node (the entry lock of NODE_MAP is held throughout). *)
Definition node_register_op (name : string) (addr : sockaddr) (connect : bool) (w : world) : world * N :=
  let nd := NRemote name addr in
  match w_nmap w !! nd with
  | Some id =>
      (if connect then
         match w_nregs w !! id with
         | Some r =>
             match n_sup r with
             | None => let '(w, s) := spawn_op w in
                       up_nregs (<[id := NReg (Some s) (n_sender r) (n_receiver r) Pending (n_name r) (n_addr r)]>) w
             | Some _ => w
             end
         | None => w
         end
       else w, id)
  | None =>
      let id := w_next_node w in
      let w := up_next_node N.succ w in
      let w := if connect then let '(w, s) := spawn_op w in
                               up_nregs (<[id := new_nreg (Some s) Pending name addr]>) w
               else up_nregs (<[id := new_nreg None Known name addr]>) w in
      (up_nmap (<[nd := id]>) w, id)
  end.
(** :415-419 node_lookup_remote, :408-412 node_lookup_local. *)
Definition lookup_remote (id : N) (w : world) : option (string * sockaddr) :=
  match w_nregs w !! id with Some r => Some (n_name r, n_addr r) | None => None end.
Definition lookup_local (w : world) : option (string * sockaddr) := lookup_remote LOCAL_NODE_ID w.
(** :185-230 node_accept for a remote node (entry lock held); Process::exit(current, Kill) on a
    pending outgoing attempt is one PROCESS_REGISTRY.alter inside. *)
Definition node_accept_op (name : string) (addr : sockaddr) (sup me : pid) (w : world) : world * bool :=
  let nd := NRemote name addr in
  match w_nmap w !! nd with
  | None =>
      let id := w_next_node w in
      (up_nmap (<[nd := id]>)
         (up_nregs (<[id := new_nreg (Some sup) Connected name addr]>) (up_next_node N.succ w)), true)
  | Some id =>
      match w_nregs w !! id with
      | None => (w, false)
      | Some r =>
          let pending := bool_decide (n_state r = Pending) in
          let w := if pending then
                     match n_sup r with
                     | Some cur => if decide (sup = cur) then w else exit_op cur me RKill w
                     | None => w
                     end
                   else w in
          let cur := if pending then None else n_sup r in
          match cur with
          | None => (up_nregs (<[id := NReg (Some sup) (n_sender r) (n_receiver r) Connected (n_name r) (n_addr r)]>) w, true)
          | Some _ => (w, false)
          end
      end
  end.
(** :137-160 node_register_workers. *)
Definition node_workers_op (nd : node) (sender receiver : pid) (w : world) : world :=
  match w_nmap w !! nd with
  | None => w
  | Some id =>
      match w_nregs w !! id with
      | None => w
      | Some r =>
          let fs := default [] (w_pend w !! nd) in
          hand_out sender fs
            (up_pend (delete nd)
               (up_nregs (<[id := NReg (n_sup r) (Some sender) (Some receiver) (n_state r) (n_name r) (n_addr r)]>) w))
      end
  end.
(** :421-443, 445-503: NODE_MONITORS and NODE_LINKS updates. *)
Definition add_nmon (nd : node) (r : reference) (m : nmonitor) : world -> world :=
  up_nmons (fun t => <[nd := <[r := m]> (default ∅ (t !! nd))]> t).
Definition del_nmon (nd : node) (r : reference) : world -> world := up_nmons (alter (delete r) nd).
Definition del_nmons (nd : node) (rs : list reference) : world -> world :=
  up_nmons (alter (fun m => foldr delete m rs) nd).
Definition add_nlink (nd : node) (p : pid) (i : N) : world -> world :=
  up_nlinks (fun t => <[nd := {[(p, i)]} ∪ default ∅ (t !! nd)]> t).
Definition del_nlinks (nd : node) (l : list (pid * N)) : world -> world :=
  up_nlinks (alter (fun s => s ∖ list_to_set l) nd).
(** :373-388 node_disconnect (entry locks held). *)
Definition node_disconnect_op (nd : node) (me : pid) (w : world) : world :=
  match w_nmap w !! nd with
  | None => w
  | Some id =>
      match w_nregs w !! id with
      | None => w
      | Some r =>
          let w := up_pend (delete nd) w in
          let w := match n_sup r with Some s => exit_op s me RKill w | None => w end in
          up_nregs (<[id := NReg None (n_sender r) (n_receiver r) Known (n_name r) (n_addr r)]>) w
      end
  end.
(** :282-298 the registration part of node_remote_supervisor_down; true = it is (or may be) this
    supervisor's registration, so links and monitors are notified next. *)
Definition sup_down_op (nd : node) (process : pid) (w : world) : world * bool :=
  match w_nmap w !! nd with
  | None => (w, false)
  | Some id =>
      match w_nregs w !! id with
      | None => (w, false)
      | Some r =>
          if match n_sup r with Some s => bool_decide (s <> process) | None => false end then (w, false)
          else (up_nregs (<[id := NReg None None None Known (n_name r) (n_addr r)]>) w, true)
      end
  end.
