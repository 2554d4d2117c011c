(** Model of the locks: which of the crate's tables a call locks, in which order, and what it still
    holds while it waits for the next one.  The other files make one step out of each section that is
    protected by a lock; here the sections are opened up.  No proofs in this file.

    A DashMap is an array of shards, each with a reader-writer lock: [get] and [contains_key] lock the
    key's shard for reading, [insert], [remove], [remove_if], [alter] and [entry] for writing, and a
    guard ([Ref], [Entry], the closure of [alter]) keeps the lock.  [iter] goes through the shards in
    order, and takes the next before it gives back the last; [clear] and [len] lock one shard at a time.
    Which shard a key is in (the hash), and how many shards there are, is arbitrary.

    What a call does may depend on what it finds; here every outcome is possible ([LAny]).  This covers
    more behaviours than the code has.  Simplification: the serialisation of a user's message looks up
    nodes for the pids in it and does not otherwise touch the tables; Drop implementations and Hash
    implementations of user types do not use the crate. *)
From stdpp Require Import base list gmap numbers strings countable sorting.
From Verif Require Import Prog Types Mailbox World ProcApi NodeApi Api.

(** ** Locks *)
(** The tables: process_registry.rs:23-27, link.rs:25, monitor.rs:33, alias.rs:10,
    node_registry.rs:55-71, registry.rs:34 (the outer table, and the table of each registry),
    hash_ring.rs:36-37 (of each ring). *)
Inductive table :=
| TNames | TProcesses | TTimers | TLinks | TMonitors | TAliases
| TNodeMap | TNodes | TNodeMonitors | TNodeLinks | TPending | TCookie
| TRegistry | TKeys (map : N) | TRingLock (ring : N) | TOverrides (ring : N).
Inductive lkey := KId (i : N) | KName (s : string) | KNode (nd : node) | KUnit.
(** A lock: a shard of a table. *)
Definition lock : Type := table * nat.
Inductive mode := Shared | Exclusive.
Global Instance table_eq_dec : EqDecision table. Proof. solve_decision. Defined.

(** What a call does with locks. *)
Inductive lprog :=
| LRet                                          (* it returns, or panics *)
| LAcq (m : mode) (l : lock) (k : lprog)
| LRel (l : lock) (k : lprog)
| LAny {A : Type} (a : A) (k : A -> lprog).     (* whatever it finds; [a] is one possibility *)
Fixpoint then_ (p q : lprog) : lprog :=
  match p with
  | LRet => q
  | LAcq m l k => LAcq m l (then_ k q)
  | LRel l k => LRel l (then_ k q)
  | LAny a k => LAny a (fun x => then_ (k x) q)
  end.
Notation "p &> q" := (then_ p q) (at level 90, right associativity).
Definition maybe (p : lprog) : lprog := LAny false (fun b : bool => if b then p else LRet).
Definition either (p q : lprog) : lprog := LAny false (fun b : bool => if b then p else q).
Fixpoint for_each {A} (l : list A) (f : A -> lprog) : lprog :=
  match l with [] => LRet | x :: l => f x &> for_each l f end.
(** Some keys, found in a table or in a message. *)
Definition some_keys (f : N -> lprog) : lprog := LAny [] (fun l : list N => for_each l f).
Definition some_key (f : N -> lprog) : lprog := LAny 0%N f.
Definition some_node (f : node -> lprog) : lprog := LAny NLocal f.

(** ** Threads *)
Record thread := Thread { t_held : list (mode * lock); t_prog : lprog }.
Fixpoint give_back (l : lock) (h : list (mode * lock)) : list (mode * lock) :=
  match h with [] => [] | x :: h => if decide (snd x = l) then h else x :: give_back l h end.
(** Nobody, not even the thread itself, holds [l] in a way that excludes [m]. *)
Definition compatible (m : mode) (l : lock) (ts : list thread) : Prop :=
  forall t m', t ∈ ts -> (m', l) ∈ t_held t -> m = Shared /\ m' = Shared.
Inductive tstep (ts : list thread) : thread -> thread -> Prop :=
| t_acquire h m l k : compatible m l ts -> tstep ts (Thread h (LAcq m l k)) (Thread ((m, l) :: h) k)
| t_release h l k : tstep ts (Thread h (LRel l k)) (Thread (give_back l h) k)
| t_find h A (a x : A) k : tstep ts (Thread h (LAny a k)) (Thread h (k x)).
(** One thread takes a step. *)
Definition lstep (ts ts' : list thread) : Prop :=
  exists i t t', ts !! i = Some t /\ tstep ts t t' /\ ts' = <[i := t']> ts.

(** Locks that prefer writers do not let a reader in while a writer is waiting. *)
Definition writer_waits (l : lock) (ts : list thread) : Prop :=
  exists t, t ∈ ts /\ match t_prog t with LAcq Exclusive l' _ => l' = l | _ => False end.
Definition must_wait (ts : list thread) (t : thread) : Prop :=
  match t_prog t with LAcq Shared l _ => writer_waits l ts | _ => False end.
(** A step that every kind of lock allows. *)
Definition sure_step (ts ts' : list thread) : Prop :=
  exists i t t', ts !! i = Some t /\ ~ must_wait ts t /\ tstep ts t t' /\ ts' = <[i := t']> ts.

Section tables.
  (** How many shards a table has, and in which the key is. *)
  Context (shards : table -> nat) (shard : table -> lkey -> nat).

  (** A guard kept during [p]. *)
  Definition holding (m : mode) (t : table) (k : lkey) (p : lprog) : lprog :=
    LAcq m (t, shard t k) (p &> LRel (t, shard t k) LRet).
  Definition reading := holding Shared.
  Definition writing := holding Exclusive.
  Definition get (t : table) (k : lkey) : lprog := reading t k LRet.
  Definition change (t : table) (k : lkey) : lprog := writing t k LRet.   (* insert, remove, alter, entry *)
  Fixpoint iter_from (t : table) (held i n : nat) : lprog :=
    match n with
    | O => LRel (t, held) LRet
    | S n => LAcq Shared (t, i) (LRel (t, held) (iter_from t i (S i) n))
    end.
  Definition iter (t : table) : lprog :=
    match shards t with O => LRet | S n => LAcq Shared (t, 0) (iter_from t 0 1 n) end.
  Definition each_shard (m : mode) (t : table) : lprog :=
    for_each (seq 0 (shards t)) (fun i => LAcq m (t, i) (LRel (t, i) LRet)).
  Definition clear (t : table) : lprog := each_shard Exclusive t.
  Definition len (t : table) : lprog := each_shard Shared t.

  (** ** process_registry.rs *)
  (** :32-38: the guard is a temporary of the condition, gone before the callback. *)
  Definition process_exists_lock (i : N) (callback : bool -> lprog) : lprog :=
    get TProcesses (KId i) &> LAny false callback.
  (** :41-45, :48-52, :55-59, :62-64, :67-69, :72-81. *)
  Definition process_drop (i : N) := change TProcesses (KId i).
  Definition process_sender (i : N) := get TProcesses (KId i).
  Definition process_name_lookup (n : string) := get TNames (KName n).
  Definition process_insert (i : N) := change TProcesses (KId i).
  Definition process_name_remove (n : string) := change TNames (KName n).
  Definition process_alive (i : N) := get TProcesses (KId i).
  (** :84-133: the entry of the name is kept. *)
  Definition process_register (p : pid) (n : string) : lprog :=
    match p with
    | PRemote _ _ => LRet
    | PLocal i => writing TNames (KName n) (maybe (change TProcesses (KId i)))
    end.
  (** :136-145. *)
  Definition process_unregister (n : string) : lprog :=
    change TNames (KName n) &> maybe (some_key (fun i => change TProcesses (KId i))).
  (** :148-189, :192-209, :212-214, :217-222, :225-230. *)
  Definition process_exit (i : N) := change TProcesses (KId i).
  Definition process_exit_signal_linked (i : N) := change TProcesses (KId i).
  Definition process_flags (i : N) := get TProcesses (KId i).
  Definition process_set_flags (i : N) := change TProcesses (KId i).
  Definition process_set_exit_reason (i : N) := change TProcesses (KId i).
  (** :233-246, :249-272, :289-291. *)
  Definition process_list := iter TProcesses.
  Definition process_name_list := iter TNames.
  Definition process_register_timer (r : reference) := change TTimers (KId (ref_id r)).
  Definition process_read_timer (r : reference) := get TTimers (KId (ref_id r)).
  Definition process_destroy_timer (r : reference) := change TTimers (KId (ref_id r)).
  Definition process_len := len TProcesses.
  (** :275-285 and process.rs:400-414, link.rs:127-133, monitor.rs:255-261. *)
  Definition process_info (i : N) : lprog :=
    get TProcesses (KId i) &> maybe (get TLinks (KId i) &> get TMonitors (KId i)).

  (** ** alias.rs:23-59 *)
  Definition alias_create (r : reference) := change TAliases (KId (ref_id r)).
  Definition alias_destroy (i : N) := change TAliases (KId i).
  Definition alias_destroy_all := some_keys (fun i => change TAliases (KId i)).
  Definition alias_retrieve (r : reference) := change TAliases (KId (ref_id r)).

  (** ** node_registry.rs *)
  (** :408-419 node_lookup_local, node_lookup_remote. *)
  Definition node_lookup (id : N) := get TNodes (KId id).
  (** process.rs:446-495 without link and monitor. *)
  Definition spawn_plain : lprog := some_key process_insert.
  (** :77-79, :82-102: the entry of the local node is kept. *)
  Definition node_alive := get TNodeMap (KNode NLocal).
  Definition node_local_start : lprog :=
    writing TNodeMap (KNode NLocal) (maybe (spawn_plain &> change TNodes (KId LOCAL_NODE_ID))).
  (** :105-120: the guard of the registration is kept during the exit. *)
  Definition node_local_stop : lprog :=
    change TNodeMap (KNode NLocal) &>
    maybe (clear TNodeMap &>
           reading TNodes (KId LOCAL_NODE_ID) (maybe (some_key process_exit)) &>
           clear TNodes &> clear TPending).
  (** :123-127, :130-134. *)
  Definition node_local_panic : lprog := clear TNodeMap &> clear TNodes &> clear TPending.
  Definition node_local_process := get TNodes (KId LOCAL_NODE_ID).
  (** :137-160: the guard of the map and the closure of [alter]. *)
  Definition node_register_workers (nd : node) : lprog :=
    reading TNodeMap (KNode nd) (maybe (some_key (fun id =>
      writing TNodes (KId id) (maybe (change TPending (KNode nd) &> some_key process_sender))))).
  (** :163-182: the guard of the registration is kept. *)
  Definition node_send_frame (id : N) : lprog :=
    reading TNodes (KId id) (either (some_key process_sender) (maybe (some_node (fun nd => change TPending (KNode nd))))).
  (** :185-230. *)
  Definition node_accept (nd : node) : lprog :=
    writing TNodeMap (KNode nd) (some_key (fun id =>
      either (change TNodes (KId id)) (writing TNodes (KId id) (maybe (some_key process_exit))))).
  (** :233-279. *)
  Definition node_register (nd : node) (connect : bool) : lprog :=
    match nd with
    | NLocal => LRet
    | NRemote _ _ =>
        writing TNodeMap (KNode nd) (some_key (fun id =>
          either (if connect then writing TNodes (KId id) (maybe spawn_plain) else LRet)
                 ((if connect then spawn_plain else LRet) &> change TNodes (KId id))))
    end.
  (** :422-503: every change of the node monitors and of the node links. *)
  Definition node_monitors (nd : node) := change TNodeMonitors (KNode nd).
  Definition node_links (nd : node) := change TNodeLinks (KNode nd).
  (** :345-370, :373-388, :391-405: lists, disconnect, forget. *)
  Definition node_list := iter TNodeMap.
  Definition node_list_filtered := iter TNodes.
  Definition node_disconnect (nd : node) : lprog :=
    reading TNodeMap (KNode nd) (maybe (some_key (fun id =>
      writing TNodes (KId id) (maybe (change TPending (KNode nd) &> maybe (some_key process_exit)))))).
  Definition node_forget (nd : node) : lprog :=
    change TNodeMap (KNode nd) &>
    maybe (some_key (fun id => change TNodes (KId id) &>
      maybe (change TPending (KNode nd) &> maybe (some_key process_exit)))).

  (** ** link.rs *)
  (** :28-42, :45-71, :74-89, :92-124. *)
  Definition link_create (i : N) (ignore_errors : bool) : lprog :=
    if ignore_errors then change TLinks (KId i)
    else process_exists_lock i (fun exists_ => if exists_ then change TLinks (KId i) else LRet).
  Definition link_install (p from : pid) : lprog :=
    link_create (pid_id from) false &>
    maybe (if pid_is_local p then link_create (pid_id p) false &> maybe (process_exit_signal_linked (pid_id from))
           else node_lookup (pid_node p) &>
                either (some_node (fun nd => node_links nd &> node_register nd true &> some_key node_send_frame))
                       (process_exit_signal_linked (pid_id from))).
  Definition link_destroy (p : pid) : lprog :=
    if pid_is_local p then change TLinks (KId (pid_id p))
    else node_send_frame (pid_node p) &> node_lookup (pid_node p) &> maybe (some_node node_links).
  Definition link_process_down (from : N) : lprog :=
    change TLinks (KId from) &>
    some_keys (fun p => change TLinks (KId p) &> process_exit_signal_linked p) &>
    some_keys (fun id => node_lookup id &> maybe (some_node node_links) &> node_send_frame id).

  (** ** monitor.rs *)
  (** :37-42, :45-60, :63-93, :96-209, :212-252. *)
  Definition monitor_create (i : N) := change TMonitors (KId i).
  Definition monitor_destroy (p : pid) (r : reference) : lprog :=
    if pid_is_local p then change TMonitors (KId (pid_id p))
    else node_send_frame (ref_node r) &> node_lookup (ref_node r) &> maybe (some_node node_monitors).
  Definition monitor_destroy_all : lprog :=
    some_keys (fun i =>
      either (either (change TMonitors (KId i)) (some_key node_send_frame)) (some_node node_monitors) &>
      maybe (some_key alias_destroy)).
  Definition monitor_remote (nd : node) : lprog := node_monitors nd &> node_register nd true &> some_key node_send_frame.
  Definition monitor_install (d : dest) (r : reference) : lprog :=
    let down := alias_destroy (ref_id r) in
    match d with
    | DPid p =>
        if pid_is_local p then
          process_exists_lock (pid_id p) (fun exists_ => if exists_ then monitor_create (pid_id p) else down)
        else node_lookup (pid_node p) &> either (some_node monitor_remote) down
    | DNamed n NLocal =>
        process_name_lookup n &>
        either (some_key (fun i => process_exists_lock i (fun exists_ => if exists_ then monitor_create i else down))) down
    | DNamed _ nd => monitor_remote nd
    | DAlias _ => LRet
    end.
  Definition monitor_process_down (from : N) : lprog :=
    change TMonitors (KId from) &>
    some_keys (fun i => maybe (process_sender i) &> maybe (some_key alias_destroy)) &>
    some_keys (fun id => node_lookup id &> maybe (some_node node_monitors) &> node_send_frame id).

  (** node_registry.rs:282-342 node_remote_supervisor_down: the guard of the map and the closure of [alter]
      around everything. *)
  Definition node_supervisor_down (nd : node) : lprog :=
    reading TNodeMap (KNode nd) (maybe (some_key (fun id =>
      writing TNodes (KId id) (maybe (
        node_links nd &>
        some_keys (fun i => link_destroy (PLocal i) &> process_exit_signal_linked i) &>
        node_monitors nd &>
        some_keys (fun i =>
          either (process_sender i) (monitor_destroy (PLocal i) (RLocal 0)) &> maybe (some_key alias_destroy)) &>
        change TPending (KNode nd)))))).
  (** :506-540 node_process_monitor_down, node_process_link_down. *)
  Definition node_process_monitor_down (nd : node) (i : N) : lprog :=
    node_monitors nd &> alias_destroy i &> maybe (some_key process_sender).
  Definition node_process_link_down (nd : node) (i : N) : lprog :=
    node_links nd &> maybe (process_exit_signal_linked i).

  (** ** Messages *)
  (** pid.rs:79-119, reference.rs:92-135: the pids and references in a message. *)
  Definition serialize : lprog := some_keys node_lookup.
  Definition deserialize : lprog :=
    LAny [] (fun l : list node => for_each l (fun nd => node_lookup LOCAL_NODE_ID &> maybe (node_register nd false))).
  (** process_kernel.rs:84-133 and node_kernel.rs:48-84. *)
  Definition local_delivery (d : dest) : lprog :=
    match d with
    | DPid p => process_sender (pid_id p)
    | DNamed n _ => process_name_lookup n &> maybe (some_key process_sender)
    | DAlias r => alias_retrieve r
    end.
  Definition send_optimal (d : dest) : lprog :=
    if dest_is_local d then local_delivery d
    else serialize &>
         match d with
         | DPid p => node_send_frame (pid_node p)
         | DNamed _ nd => node_register nd false &> some_key node_send_frame
         | DAlias r => node_send_frame (ref_node r)
         end.
  (** process_kernel.rs:23-81. *)
  Definition process_send (ds : dests) : lprog :=
    match ds with
    | DsOne d => send_optimal d
    | DsMany l =>
        for_each l (fun d =>
          maybe (if dest_is_local d then serialize &> local_delivery d
                 else match d with DNamed _ nd => node_register nd false | _ => LRet end &> serialize)) &>
        LAny (DAlias (RLocal 0)) (fun d => if dest_is_local d then local_delivery d else LRet) &>
        some_keys node_send_frame
    end.
  (** node_kernel.rs:20-46. *)
  Definition node_forward_send (ts : list send_target) : lprog :=
    for_each ts (fun t => local_delivery (target_dest t)).

  (** process.rs:446-495 spawn_internal. *)
  Definition spawn (me : N) (link monitor : bool) : lprog :=
    some_key (fun i =>
      (if link then link_create i true &> link_create me true else LRet) &>
      (if monitor then monitor_create i else LRet) &>
      process_insert i).
  (** process.rs:417-433 Drop for Process. *)
  Definition process_gone (i : N) : lprog :=
    process_drop i &> maybe (LAny "" process_name_remove) &>
    link_process_down i &> monitor_process_down i &> monitor_destroy_all &> alias_destroy_all.
  (** process.rs:388-396 exit. *)
  Definition exit_locks (p : pid) : lprog :=
    if pid_is_local p then process_exit (pid_id p) else node_send_frame (pid_node p).

  (** node_remote.rs:147-276 a frame from [nd]. *)
  Definition frame_locks (nd : node) (f : frame) : lprog :=
    let registered (k : N -> lprog) := node_register nd false &> some_key k in
    match f with
    | FHello _ _ _ | FPong => LRet
    | FPing => some_key process_sender
    | FSend ts _ => node_forward_send ts
    | FMonitor install p n _ r =>
        registered (fun id =>
          if install then
            match p, n with
            | Some i, _ => process_exists_lock i (fun exists_ =>
                if exists_ then monitor_create i &> node_monitors nd else node_send_frame id)
            | None, Some n => process_name_lookup n &>
                either (some_key (fun i => monitor_create i &> node_send_frame id &> node_monitors nd)) (node_send_frame id)
            | None, None => LRet
            end
          else maybe (some_key (fun i => monitor_destroy (PLocal i) (RRemote r id)) &> node_monitors nd))
    | FMonitorDown rs _ => for_each rs (node_process_monitor_down nd)
    | FMonitorUpdate _ i _ => registered (fun _ => process_sender i)
    | FLink install i _ =>
        registered (fun id =>
          if install then link_create i false &> either (node_links nd) (node_send_frame id)
          else link_destroy (PLocal i) &> node_links nd)
    | FLinkDown ls _ _ => registered (fun _ => for_each ls (node_process_link_down nd))
    | FExit i _ _ => registered (fun _ => process_exit i)
    end.

  (** ** The calls of the API (Api.v) *)
  Definition call_locks (c : call) : lprog :=
    match c with
    | CAlias _ _ => some_key (fun i => alias_create (RLocal i))
    | CUnalias _ r => alias_destroy (ref_id r)
    | CWhereis n => process_name_lookup n
    | CSend ds _ => process_send ds
    | CSendAfter _ _ _ => some_key (fun i => process_register_timer (RLocal i))
    | CCancel r => process_destroy_timer r
    | CReadTimer r => process_read_timer r
    | CFire i => LAny (DsMany []) process_send &> process_destroy_timer (RLocal i)
    | CTick => LRet
    | CSpawn me l m => spawn me l m
    | CAlive p => process_alive (pid_id p)
    | CRegister p n => process_register p n
    | CUnregister n => process_unregister n
    | CRegistered => process_name_list
    | CList => process_list
    | CLink me p => if decide (p = PLocal me) then LRet else link_install p (PLocal me)
    | CUnlink me p => if decide (p = PLocal me) then LRet else link_destroy p
    | CMonitor _ d => some_key (fun i => monitor_install d (RLocal i))
    | CMonitorAlias _ d _ => some_key (fun i => alias_create (RLocal i) &> monitor_install d (RLocal i))
    | CDemonitor _ r => maybe (LAny (PLocal 0) (fun p => monitor_destroy p r) &> alias_destroy (ref_id r))
    | CFlags me => process_flags me
    | CSetFlags me _ => process_set_flags me
    | CExit _ p _ => exit_locks p
    | CInfo p => if pid_is_local p then process_info (pid_id p) else LRet
    | CReceive _ _ _ _ => deserialize
    | CFinish me => process_gone me
    | CCrash me _ => process_set_exit_reason me &> process_gone me
    | CNodeAlive => node_alive
    | CNodeStart _ _ => node_local_start
    | CNodeStop _ => node_local_stop
    | CLocalPanic => node_local_panic
    | CNodeList => node_list
    | CNodeListBy _ => node_list_filtered
    | CConnect nd => node_register nd true
    | CDisconnect _ nd => match nd with NLocal => LRet | _ => node_disconnect nd end
    | CForget _ nd => match nd with NLocal => LRet | _ => node_forget nd end
    | CNodeMonitor _ nd => match nd with NLocal => LRet | _ => node_monitors nd &> node_register nd true end
    | CNodeDemonitor _ _ => maybe (some_node node_monitors)
    | CSupervise me n a =>
        node_accept (NRemote n a) &> maybe (spawn me true false &> spawn me true false &> node_register_workers (NRemote n a))
    | CSupDown nd _ => node_supervisor_down nd
    | CFrame nd _ f => frame_locks nd f
    end.

  (** ** The rest of the crate *)
  Inductive deed :=
  | DCall (c : call)
  | DCookie                                   (* node_registry.rs:543-550 *)
  | DLen                                      (* process_registry.rs:289-291, from console.rs *)
  | DLocalProcess                             (* node_registry.rs:130-134 *)
  | DLookup (reg : string) (map : N) (k : lkey)    (* registry.rs:618-622; [map] is the table found *)
  | DRemove (reg : string) (map : N) (k : lkey)    (* :625-629 *)
  | DCount (reg : string) (map : N)                (* :632-637 *)
  | DKeys (reg : string) (map : N)                 (* :640-650 *)
  | DEnter (reg : string) (map : N) (k : lkey)     (* :653-658 *)
  | DExited (reg : string) (map : N) (k : lkey)    (* :463-466 *)
  | DClosed (reg : string) (map : N) (ks : list lkey) (ps : list pid)  (* :392-404, :471-477 *)
  | DNode (ring : N)                          (* hash_ring.rs:55-138, 205-209: every change of the nodes *)
  | DFind (ring : N) (k : lkey)               (* :141-147 *)
  | DOverride (ring : N) (k : lkey)           (* :177-179, :198-202 *)
  | DOverrides (ring : N) (ks : list lkey)    (* :182-186 *)
  | DSetOverrides (ring : N) (ks : list lkey). (* :189-195 *)
  (** hash_ring.rs:151-174 map_node: the callback runs while the guard of the override is kept. *)
  Definition map_node (ring : N) (k : lkey) (callback : lprog) : lprog :=
    LAcq Shared (TOverrides ring, shard (TOverrides ring) k)
      (either (callback &> LRel (TOverrides ring, shard (TOverrides ring) k) LRet)
              (LRel (TOverrides ring, shard (TOverrides ring) k) callback)).
  Definition locks_of (d : deed) : lprog :=
    match d with
    | DCall c => call_locks c
    | DCookie => change TCookie KUnit
    | DLen => process_len
    | DLocalProcess => node_local_process
    | DLookup reg map k => reading TRegistry (KName reg) (maybe (get (TKeys map) k))
    | DRemove reg map k => writing TRegistry (KName reg) (maybe (change (TKeys map) k))
    | DCount reg map => reading TRegistry (KName reg) (maybe (len (TKeys map)))
    | DKeys reg map => reading TRegistry (KName reg) (maybe (iter (TKeys map)))
    | DEnter reg map k => writing TRegistry (KName reg) (change (TKeys map) k)
    | DExited reg map k => writing TRegistry (KName reg) (maybe (change (TKeys map) k))
    | DClosed reg map ks ps =>
        change TRegistry (KName reg) &> maybe (len (TKeys map) &>
          for_each ks (fun k => get (TKeys map) k &>
            maybe (LAny (PLocal 0) (fun p => some_key (fun i => monitor_install (DPid p) (RLocal i)) &> exit_locks p)))) &>
        for_each ps (fun p => link_destroy p &> exit_locks p)
    | DNode ring => change (TRingLock ring) KUnit
    | DFind ring k => map_node ring k LRet
    | DOverride ring k => change (TOverrides ring) k
    | DOverrides ring ks => for_each ks (change (TOverrides ring))
    | DSetOverrides ring ks => clear (TOverrides ring) &> for_each ks (change (TOverrides ring))
    end.

  (** hash_ring.rs:100-117 add_nodes, :120-138 set_nodes: the caller's iterator runs while the ring's mutex
      is kept. *)
  Definition add_nodes (ring : N) (iterator : lprog) : lprog := writing (TRingLock ring) KUnit iterator.
End tables.

(** Threads that begin, at any time, anything in [starts], and take steps in any order. *)
Inductive lreach (starts : lprog -> Prop) : list thread -> Prop :=
| lreach_start : lreach starts []
| lreach_begin ts p : lreach starts ts -> starts p -> lreach starts (ts ++ [Thread [] p])
| lreach_step ts ts' : lreach starts ts -> lstep ts ts' -> lreach starts ts'.
