{"id": "C01", "title": "Hash ring lookup is the clockwise successor", "statement": "After any sequence of add_node/add_nodes/set_nodes/remove_node/clear calls, find_node(k) for a key without an override returns None exactly when the ring holds no node, and otherwise the node whose key hash is the smallest one >= hash(k), or, if there is none, the node with the smallest key hash.", "quantifier": "every hash function, every key, every sequence of ring operations of any length", "why_tests_cant": "the answer depends on the relative order of all 64-bit hashes in the ring and of the key; tests sample a handful of keys under a random hasher", "anchors": ["hydra/src/hash_ring.rs: HashRing::find_node, map_node, add_node, remove_node, add_nodes, set_nodes"]}
{"id": "C02", "title": "Hash ring node table behaves like a map", "statement": "add_node, add_nodes, set_nodes and remove_node act on the ring exactly like insert/bulk insert/replace/remove on a map from key hash to node: add_node and remove_node return the value previously stored for that key hash (None if absent), the last write for a key wins, and no other key's node changes.", "quantifier": "every sequence of ring operations, every key and node", "why_tests_cant": "needs every interleaving of inserts, overwrites and removals at every position of the sorted vector", "anchors": ["hydra/src/hash_ring.rs: add_node, remove_node, add_nodes, set_nodes"]}
{"id": "C03", "title": "Hash ring minimal disruption", "statement": "Adding a node changes the owner of a key only if the new owner is the node just added; removing a node changes the owner of a key only if its previous owner was the node just removed.", "quantifier": "every ring reachable by operations, every added/removed node, every looked-up key", "why_tests_cant": "it is a statement about all keys of a hash space of 2^64 points at once", "anchors": ["hydra/src/hash_ring.rs: add_node, remove_node, map_node"]}
{"id": "C04", "title": "Hash ring overrides pin exactly their key", "statement": "A key with an override resolves to the override whatever nodes are added, removed, set or cleared; adding or removing an override changes the resolution of no key with a different hash; removing it restores the ring's own answer; add_overrides adds to and set_overrides replaces the set of overrides.", "quantifier": "every sequence of ring and override operations, every key", "why_tests_cant": "requires all interleavings of ring and override updates", "anchors": ["hydra/src/hash_ring.rs: add_override, add_overrides, set_overrides, remove_override, map_node"]}
{"id": "C05", "title": "HashRing::clear clears nodes and overrides", "statement": "As documented ('Clears all of the nodes and overrides from the hash ring'), after clear() every lookup returns None.", "quantifier": "every reachable ring, every key", "why_tests_cant": "the shipped test only looks up a key without override", "anchors": ["hydra/src/hash_ring.rs: clear"]}
{"id": "C06", "title": "Hash ring concurrent updates and snapshots", "statement": "When add_node/remove_node/add_nodes/set_nodes/clear run concurrently from any number of threads, no update is lost (the final node table is that of some serial order of the calls) and every concurrent lookup is answered from a node table that existed between two complete updates, never from a partially updated one. A key that has an override before and after a concurrent set_overrides is never seen without one.", "quantifier": "every number of threads and every interleaving of their steps", "why_tests_cant": "races only show under particular schedules", "anchors": ["hydra/src/hash_ring.rs: ring_lock, ArcSwap ring, set_overrides"]}
{"id": "C07", "title": "Frame encode/decode round trip", "statement": "Encoding any protocol frame whose encoded body is smaller than 4 GiB and decoding the result yields exactly the same frame (up to the flow label and scope id of an IPv6 address, which the format does not carry) and consumes exactly the bytes written, whatever bytes precede the frame in the output buffer or follow it in the input buffer.", "quantifier": "every frame of every kind with every field value, every output-buffer prefix and input-buffer suffix", "why_tests_cant": "unbounded strings, vectors, options and 64-bit integers", "anchors": ["hydra/src/frame/mod.rs: Codec::encode, Codec::decode", "hydra/src/frame/*.rs"]}
{"id": "C08", "title": "Frame stream is independent of packet boundaries", "statement": "If a sequence of frames is encoded back to back and the byte stream reaches the peer cut into chunks at arbitrary positions, the decoder yields exactly that sequence of frames, in order, with nothing lost, duplicated or merged.", "quantifier": "every list of frames and every way to cut the stream into chunks", "why_tests_cant": "there are exponentially many cuts; the 0.1.25 bug (several frames encoded at once) was in this area", "anchors": ["hydra/src/frame/mod.rs: Codec"]}
{"id": "C09", "title": "An incomplete frame is never consumed", "statement": "While fewer bytes than the announced frame are buffered, decode returns Ok(None) and leaves the buffer unchanged; it never yields a frame, an error, or consumes input early.", "quantifier": "every frame and every proper prefix of its encoding", "why_tests_cant": "every prefix of every frame", "anchors": ["hydra/src/frame/mod.rs: Codec::decode"]}
{"id": "C10", "title": "Frame boundaries hold for arbitrary peer bytes", "statement": "For any bytes a peer may send, the frame decoded from one length-prefixed unit depends only on the bytes of that unit, and a complete unit is always either decoded or rejected.", "quantifier": "every byte string received from the network", "why_tests_cant": "needs adversarial inputs", "anchors": ["hydra/src/frame/mod.rs: Codec::decode"]}
{"id": "C11", "title": "Pids and references keep their identity across the wire", "statement": "A pid (or reference) serialised on a started node and deserialised on another started node denotes the same process on the same node; sent back home it becomes the original local pid; distinct pids never collapse into one; a pid from a node that is not distributed deserialises to a pid that addresses no node.", "quantifier": "every pid, every pair of nodes, every state of their node tables", "why_tests_cant": "the result depends on the history of node ids on both sides", "anchors": ["hydra/src/pid.rs: Serialize, Deserialize", "hydra/src/reference.rs: Serialize, Deserialize", "hydra/src/node_registry.rs: node_register, node_lookup_local, node_lookup_remote"]}
{"id": "C12", "title": "Node ids are stable, unique and never reused", "statement": "Within a run, two different nodes never share a node id, a node keeps its id until it is forgotten, and an id that has been forgotten is never given to any node again, so pids of a forgotten node stay unreachable even after the node reconnects.", "quantifier": "every sequence of register/connect/accept/disconnect/forget/stop operations", "why_tests_cant": "depends on whole histories", "anchors": ["hydra/src/node_registry.rs: node_register, node_accept, node_forget, node_local_stop"]}
{"id": "C13", "title": "Node values survive the wire", "statement": "A Node value serialised on a started node and deserialised on another started node denotes the same node (Local exactly when it is the receiver).", "quantifier": "every node value and pair of nodes", "why_tests_cant": "depends on the state of both nodes", "anchors": ["hydra/src/node.rs: Serialize, Deserialize"]}
{"id": "C14", "title": "The handshake authenticates the peer's name and address", "statement": "A Hello is accepted only if its challenge was produced by a holder of the same cookie for exactly this name and broadcast address; a node with the same cookie is always accepted.", "quantifier": "every cookie, name, address and challenge", "why_tests_cant": "quantifies over all names/addresses and adversarial hellos", "anchors": ["hydra/src/frame/hello.rs: Hello::new, Hello::validate"]}
{"id": "C15", "title": "A connector only talks to the node it asked for", "statement": "An outgoing connection is promoted to a connected node only if the peer's hello validates and carries exactly the name and address that were dialled; otherwise the attempt fails without registering the peer.", "quantifier": "every hello received and every node dialled", "why_tests_cant": "adversarial peers", "anchors": ["hydra/src/node_remote.rs: node_remote_connector, node_remote_accepter"]}
{"id": "C16", "title": "Pids and references are never reused", "statement": "Every spawned process gets a pid, and every Reference::new a reference, different from all those handed out before on this node, in every interleaving of concurrent callers.", "quantifier": "all histories and schedules of fewer than 2^64 allocations", "why_tests_cant": "long histories and races", "anchors": ["hydra/src/process.rs: ID, spawn_internal", "hydra/src/reference.rs: Reference::new"]}
{"id": "C17", "title": "A registered name has exactly one live owner", "statement": "At every moment each name is owned by at most one process and each process owns at most one name; whereis(name) returns the process that registered it until it is unregistered or the process exits, and then the name is free again; register fails without effect for remote, dead or already named processes and for names held by others.", "quantifier": "every history of spawn/register/unregister/exit, and every schedule", "why_tests_cant": "depends on histories and on races between unregister and register", "anchors": ["hydra/src/process_registry.rs: process_register, process_unregister, process_name_lookup", "hydra/src/process.rs: Drop for Process"]}
{"id": "C18", "title": "Exit signals follow the documented table", "statement": "Process::exit(pid, reason): Kill always terminates the target with reason Kill; a custom reason terminates a target that does not trap exits (or exits itself) with that reason and is delivered as an Exit message to one that traps; Normal/Ignore from another process never terminate the target, and are delivered as a message only if it traps; no other process, mailbox, name, link or monitor is affected.", "quantifier": "every process table, target, sender and reason", "why_tests_cant": "the full state space including non-interference", "anchors": ["hydra/src/process_registry.rs: process_exit", "hydra/src/process.rs: Process::exit"]}
{"id": "C19", "title": "Links propagate exits to exactly the linked processes", "statement": "When a process exits with reason r, each local process linked to it at that moment receives exactly one signal: an Exit(pid, r) message if it traps exits, termination with reason r if it does not and r is not Normal, nothing otherwise; processes not linked to it receive nothing; linking to a process that does not exist yields a 'noproc' exit signal.", "quantifier": "every process table, link graph and exit reason", "why_tests_cant": "all link graphs and cascades", "anchors": ["hydra/src/link.rs: link_process_down, link_install, link_create", "hydra/src/process_registry.rs: process_exit_signal_linked"]}
{"id": "C20", "title": "Unlink removes the link in both directions", "statement": "After Process::unlink(pid) neither process is affected by the exit of the other.", "quantifier": "every process table and link graph", "why_tests_cant": "the shipped test only exercises one direction", "anchors": ["hydra/src/link.rs: link_destroy", "hydra/src/process.rs: Process::unlink"]}
{"id": "C21", "title": "A monitor reports the target's exit exactly once", "statement": "For each monitor call on a local process, if the target does not exist a ProcessDown with 'noproc' is queued immediately; otherwise exactly one ProcessDown with this reference, the destination used and the target's exit reason is queued to the monitoring process when the target exits, and never before.", "quantifier": "every history in which API calls do not overlap", "why_tests_cant": "all histories", "anchors": ["hydra/src/monitor.rs: monitor_install, monitor_process_down, monitor_create"]}
{"id": "C22", "title": "A monitor reports the target's exit under every schedule", "statement": "The guarantee of the previous property holds in every interleaving of the monitor call with the target's exit: no ProcessDown is ever lost, and none is ever duplicated.", "quantifier": "every schedule of the atomic table operations", "why_tests_cant": "the window is a few instructions wide", "anchors": ["hydra/src/process_registry.rs: process_exists_lock", "hydra/src/monitor.rs: monitor_install, monitor_process_down", "hydra/src/link.rs: link_create"]}
{"id": "C23", "title": "Demonitor silences the monitor", "statement": "After Process::demonitor(ref) returns, the process never receives a ProcessDown for ref, even if it was already queued ('discarded automatically').", "quantifier": "every mailbox content and every earlier use of receivers", "why_tests_cant": "depends on what selective receives scanned before", "anchors": ["hydra/src/process.rs: Process::demonitor", "hydra/src/process_receiver.rs: process_item"]}
{"id": "C24", "title": "Aliases: a one-shot alias delivers at most one message", "statement": "A message sent to an alias reaches the owner iff the alias is active; a reply alias delivers at most one message ever, under every interleaving of concurrent senders; unalias returns true exactly when the alias was active, and after it (or the owner's exit) nothing is delivered through it.", "quantifier": "every history and schedule of senders", "why_tests_cant": "race between senders", "anchors": ["hydra/src/alias.rs: alias_retrieve, alias_create, alias_destroy", "hydra/src/process.rs: alias, unalias, monitor_alias", "hydra/src/process_kernel.rs"]}
{"id": "C25", "title": "Process exit releases everything it held", "statement": "When a process has exited, its pid is not alive and not listed, its name is free, no link, monitor or alias table mentions it as owner, and nothing it owned remains.", "quantifier": "every history of the process's API calls", "why_tests_cant": "all histories", "anchors": ["hydra/src/process.rs: Drop for Process", "hydra/src/monitor.rs: monitor_destroy_all", "hydra/src/alias.rs: alias_destroy_all"]}
{"id": "C26", "title": "Mailbox order and selective receive", "statement": "select(filter) returns the oldest queued message (in arrival order, including messages skipped by earlier receives) of the wanted type that satisfies the filter; all other messages stay queued in arrival order, none is lost or duplicated; receive() without filter returns messages in arrival order.", "quantifier": "every mailbox content, filter and sequence of receives and sends", "why_tests_cant": "all mailboxes and filters", "anchors": ["hydra/src/process_receiver.rs: select, receive, process_item, convert_item"]}
{"id": "C27", "title": "A receive that times out loses nothing", "statement": "If a receive wrapped in a timeout is abandoned after having scanned any number of messages, every scanned message is still received later, in order.", "quantifier": "every mailbox, filter and abandonment point", "why_tests_cant": "cancellation at every await point", "anchors": ["hydra/src/process_receiver.rs: select", "hydra/src/process.rs: Process::timeout"]}
{"id": "C28", "title": "ProcessReceiver::remove removes exactly the matching queued messages", "statement": "remove(filter) deletes exactly the already queued messages of the wanted type that match and keeps all others in order.", "quantifier": "every mailbox and filter", "why_tests_cant": "all mailboxes", "anchors": ["hydra/src/process_receiver.rs: remove"]}
{"id": "C29", "title": "Send delivers once to each existing destination", "statement": "Process::send to one or many destinations appends the message exactly once to the mailbox of every existing local destination, once per mention, one frame per remote node carrying exactly the targets on that node in order, and affects nothing else; a destination that does not exist is ignored.", "quantifier": "every destination list and process table", "why_tests_cant": "all destination lists with duplicates, names, aliases and remote nodes", "anchors": ["hydra/src/process_kernel.rs: process_send, process_send_optimal, process_send_unoptimal"]}
{"id": "C30", "title": "A spawned process is fully registered", "statement": "When spawn returns, the pid is alive or has exited; a process can rely on its own flags, name registration and exit clean-up from its first instruction on, in every schedule.", "quantifier": "every schedule of the spawning thread and the new task", "why_tests_cant": "needs the new task to run before the spawning thread's next instruction", "anchors": ["hydra/src/process.rs: spawn_internal"]}
{"id": "C31", "title": "Timers deliver once, cancel prevents delivery, read reports the rest", "statement": "send_after delivers its message exactly once and not before the duration elapsed unless cancelled; after cancel_timer the message is not delivered; read_timer returns the remaining time while pending and None once fired or cancelled.", "quantifier": "every history and schedule of timers", "why_tests_cant": "time and races", "anchors": ["hydra/src/process.rs: send_after, cancel_timer, read_timer", "hydra/src/process_registry.rs: process_register_timer, process_destroy_timer, process_read_timer"]}
{"id": "C32", "title": "Process::info and flags reflect the process", "statement": "For a live local process, info reports its registered name, trap flag, linked pids and the pids monitoring it, and set_flags/flags round-trip without affecting others.", "quantifier": "every process table", "why_tests_cant": "all tables", "anchors": ["hydra/src/process.rs: info, flags, set_flags", "hydra/src/process_registry.rs: process_info", "hydra/src/link.rs: link_fill_info", "hydra/src/monitor.rs: monitor_fill_info"]}
{"id": "C33", "title": "GenServer handles messages one at a time and terminates cleanly", "statement": "A GenServer whose init succeeded handles the messages of its mailbox one by one in order with the matching callback; terminate is invoked exactly once, last, with reason r, exactly when a callback returned Err(r), a Stop(r) arrived or (trapping exits) the parent's exit signal r arrived, and the process then exits with r; if init fails no callback and no terminate runs and the process exits with init's reason.", "quantifier": "every server implementation and message sequence", "why_tests_cant": "all implementations", "anchors": ["hydra/src/gen_server.rs: start_gen_server"]}
{"id": "C34", "title": "start/start_link report the outcome of init", "statement": "start returns Ok(pid) iff the name (if any) could be registered and init returned Ok within the timeout; otherwise Err with 'already_started', init's reason or 'timeout', and the process does not serve any message.", "quantifier": "every init outcome, name table and timeout", "why_tests_cant": "all outcomes", "anchors": ["hydra/src/gen_server.rs: start_gen_server"]}
{"id": "C35", "title": "GenServer::call returns the reply to this call", "statement": "call returns Ok(m) only if m was sent as the reply to this very call, Err(ServerDown(r)) only if the server exited with r (or did not exist), Err(Timeout) otherwise; other messages in the caller's mailbox are untouched; and after the call has returned, nothing belonging to it (reply or down message) is ever seen by the caller.", "quantifier": "every mailbox content, server behaviour and arrival order", "why_tests_cant": "late replies", "anchors": ["hydra/src/gen_server.rs: call, reply", "hydra/src/from.rs"]}
{"id": "C36", "title": "GenServer::stop reports the exit reason", "statement": "stop(server, r) returns Ok iff the server goes down with exactly r, Err(actual reason) if it goes down with another one (noproc if it does not exist), and Err('timeout') after the timeout.", "quantifier": "every server outcome", "why_tests_cant": "all outcomes", "anchors": ["hydra/src/gen_server.rs: stop"]}
{"id": "C37", "title": "Restart policy", "statement": "When a supervised child exits: a permanent child is always restarted, a transient child is restarted iff the reason is neither normal nor 'shutdown', a temporary child never; a child that is not restarted is removed from the supervisor; an exit of an unknown pid changes nothing.", "quantifier": "every supervisor state, child and exit reason", "why_tests_cant": "all states", "anchors": ["hydra/src/supervisor.rs: restart_exited_child", "hydra/src/restart.rs"]}
{"id": "C38", "title": "Restart strategies restart exactly the prescribed children", "statement": "OneForOne restarts only the exited child; RestForOne terminates and restarts the exited child and those started after it; OneForAll all children; all others keep running with the same pid; restarts happen in child order and specs/ids/order of children are preserved.", "quantifier": "every supervisor state and start outcome", "why_tests_cant": "all child lists", "anchors": ["hydra/src/supervisor.rs: restart, restart_multiple_children, terminate_child_by_index, start_child_by_index"]}
{"id": "C39", "title": "Restart intensity", "statement": "The supervisor gives up (shuts down) exactly when a restart is the (max_restarts+1)-th within the last max_duration; otherwise it restarts.", "quantifier": "every sequence of restart times", "why_tests_cant": "all time sequences", "anchors": ["hydra/src/supervisor.rs: add_restart"]}
{"id": "C40", "title": "Automatic shutdown", "statement": "With auto_shutdown Never a child exit never shuts the supervisor down by itself; with AnySignificant it does as soon as one significant child terminates without restart; with AllSignificant exactly when the last significant child has terminated.", "quantifier": "every supervisor state and exiting child", "why_tests_cant": "all states", "anchors": ["hydra/src/supervisor.rs: check_auto_shutdown", "hydra/src/shutdown.rs: AutoShutdown"]}
{"id": "C41", "title": "Temporary children are never restarted", "statement": "As documented, a temporary child is never restarted, regardless of the supervision strategy, and its specification is deleted when it terminates (by itself or by terminate_child).", "quantifier": "every strategy, supervisor state and cause", "why_tests_cant": "combinations of strategies", "anchors": ["hydra/src/restart.rs", "hydra/src/supervisor.rs: restart_multiple_children, terminate_child_by_id"]}
{"id": "C42", "title": "Child ids stay unique and the supervisor API never crashes the supervisor", "statement": "At all times child ids are unique; start_child with an id in use returns AlreadyStarted/AlreadyPresent and changes nothing; no sequence of API calls and child exits makes the supervisor panic.", "quantifier": "every history of supervisor operations", "why_tests_cant": "all histories", "anchors": ["hydra/src/supervisor.rs: start_new_child, add_child, remove_child, delete_child_by_id"]}
{"id": "C43", "title": "Ordered start and reverse-ordered termination", "statement": "Children are started in order (a failure terminates those already started and fails init) and terminated in reverse start order; after termination no child is left running.", "quantifier": "every child list and start outcome", "why_tests_cant": "all lists", "anchors": ["hydra/src/supervisor.rs: start_children, init_children, terminate_children"]}
{"id": "C44", "title": "terminate_child / restart_child / delete_child", "statement": "terminate_child stops the child and keeps its specification so that it is not running until restarted; restart_child starts it only if it is neither running nor restarting (else Running/Restarting/NotFound) and delete_child removes only a stopped child; no other child is affected.", "quantifier": "every supervisor state", "why_tests_cant": "all states", "anchors": ["hydra/src/supervisor.rs: terminate_child_by_id, restart_child_by_id, delete_child_by_id"]}
{"id": "C45", "title": "count_children and which_children agree with the supervisor", "statement": "which_children lists every child once in order with its pid and restarting flag, count_children's specs = active+inactive = workers+supervisors = length of which_children, and active counts exactly the children with a running process.", "quantifier": "every supervisor state", "why_tests_cant": "all states", "anchors": ["hydra/src/supervisor.rs: count_all_children, which_children_info"]}
{"id": "C46", "title": "A registry key has at most one process", "statement": "lookup/lookup_or_start/start_process: each key maps to at most one pid; lookup_or_start returns the registered pid without starting anything if there is one and otherwise starts and registers exactly one; start_process on a registered key returns AlreadyStarted with that pid; a failed start leaves the registry unchanged.", "quantifier": "every history of registry operations", "why_tests_cant": "all histories", "anchors": ["hydra/src/registry.rs: lookup_or_start_by_key, start_by_key, register_process, lookup_process"]}
{"id": "C47", "title": "Registry entries disappear with their process, and only then", "statement": "When a registered process exits, its key (and no other) is unregistered, unless the key meanwhile belongs to another process; stop_process and remove unregister exactly the given key; remove leaves the process running.", "quantifier": "every history", "why_tests_cant": "re-registration races", "anchors": ["hydra/src/registry.rs: remove_process, stop_by_key, remove_by_key, handle_cast(RemoveLookup)"]}
{"id": "C48", "title": "A registry without start routine answers StartNotSupported", "statement": "lookup_or_start/start_process on a registry constructed without with_start returns Err(StartNotSupported) and the registry keeps running.", "quantifier": "every key and registry state", "why_tests_cant": "documented error never exercised", "anchors": ["hydra/src/registry.rs: start_by_key, RegistryError::StartNotSupported"]}
{"id": "C49", "title": "A failed duplicate start does not disturb the running registry", "statement": "Starting a second registry with a name in use fails with 'already_started' and leaves the running registry's entries intact.", "quantifier": "every registry state", "why_tests_cant": "cross-instance effect of Drop", "anchors": ["hydra/src/registry.rs: Drop for Registry", "hydra/src/gen_server.rs: start_gen_server"]}
{"id": "C50", "title": "Registry count and list agree with lookup", "statement": "count equals the length of list, list contains (k,p) exactly once iff lookup(k)=p, and operations on one registry never affect another registry.", "quantifier": "every history over several registries", "why_tests_cant": "all histories", "anchors": ["hydra/src/registry.rs: count_processes, list_processes"]}
{"id": "C51", "title": "Frames sent while connecting are delivered first and in order", "statement": "Frames sent to a node while its connection is pending are handed to the connection, once and in order, before any frame sent after the connection is up; frames to a known but unconnected node or to an unknown id are dropped.", "quantifier": "every history of sends and connection events", "why_tests_cant": "ordering between queue drain and new sends", "anchors": ["hydra/src/node_registry.rs: node_send_frame, node_register_workers"]}
{"id": "C52", "title": "Connection loss notifies every link and monitor exactly once", "statement": "When the connection to a node goes down, every local process linked to a process there receives one 'noconnection' exit signal, every process monitor one ProcessDown('noconnection'), every node monitor one NodeDown, remote monitors on local processes are removed, and the tables for that node are empty.", "quantifier": "every set of links/monitors and process table", "why_tests_cant": "all tables", "anchors": ["hydra/src/node_registry.rs: node_remote_supervisor_down", "hydra/src/node_remote.rs: Drop for NodeRemoteSupervisor"]}
{"id": "C53", "title": "Forgetting or stopping notifies links and monitors too", "statement": "Node::forget ('Forcefully disconnects') and Node::stop likewise notify every link and monitor on the affected nodes.", "quantifier": "every node state", "why_tests_cant": "not covered by tests", "anchors": ["hydra/src/node_registry.rs: node_forget, node_local_stop, node_remote_supervisor_down"]}
{"id": "C54", "title": "A node has at most one supervising connection", "statement": "For each node at most one process is its supervisor; accept succeeds iff there is no established one (a pending outgoing attempt is cancelled in its favour); connect does nothing when connected or pending; a stale supervisor's exit does not tear down its successor.", "quantifier": "every history of connect/accept/disconnect/exit", "why_tests_cant": "connection races", "anchors": ["hydra/src/node_registry.rs: node_accept, node_register, node_remote_supervisor_down, node_disconnect"]}
{"id": "C55", "title": "Two nodes connecting to each other at the same time end up connected", "statement": "If two nodes dial each other concurrently, exactly one of the two connections survives.", "quantifier": "every interleaving of the two handshakes", "why_tests_cant": "distributed race", "anchors": ["hydra/src/node_registry.rs: node_accept", "hydra/src/node_remote.rs: node_remote_supervisor"]}
{"id": "C56", "title": "Remote monitors report exactly once", "statement": "A monitor on a remote process yields exactly one ProcessDown: with the exit reason when the process exits, 'noproc' if it does not exist, or 'noconnection' when the connection is lost, and never two of them.", "quantifier": "every order of frames, exits and connection loss", "why_tests_cant": "distributed schedules", "anchors": ["hydra/src/node_remote.rs: node_remote_receiver", "hydra/src/node_registry.rs: node_process_monitor_down", "hydra/src/monitor.rs"]}
{"id": "C57", "title": "Demonitoring a remote process withdraws the remote monitor", "statement": "After demonitor of a remote process (or exit of the monitoring process) the remote node is told to drop the monitor and the local bookkeeping is removed.", "quantifier": "every remote monitor", "why_tests_cant": "wrong node id only shows across nodes", "anchors": ["hydra/src/monitor.rs: monitor_destroy, monitor_destroy_all", "hydra/src/node_remote.rs: Frame::Monitor"]}
{"id": "C58", "title": "Remote links propagate exits across nodes", "statement": "When a process linked to a remote process exits, the remote process receives exactly one exit signal with that reason from it; a link request to a missing remote process yields 'noproc'; unlink withdraws it.", "quantifier": "every link graph across two nodes and every exit", "why_tests_cant": "distributed schedules", "anchors": ["hydra/src/link.rs", "hydra/src/node_remote.rs: Frame::Link, Frame::LinkDown", "hydra/src/node_registry.rs: node_process_link_down"]}
{"id": "C59", "title": "Remote sends and exits reach the same process as local ones", "statement": "A Send/Exit frame is delivered on the receiving node exactly as the corresponding local send/exit: once per existing target, ignored otherwise.", "quantifier": "every frame and process table", "why_tests_cant": "all tables", "anchors": ["hydra/src/node_kernel.rs: node_forward_send, node_process_send_exit", "hydra/src/node_remote.rs"]}
{"id": "C60", "title": "Node state list", "statement": "Node::list and list_by_state report exactly the registered remote nodes and those in the given state; disconnect leaves the node known.", "quantifier": "every history", "why_tests_cant": "all histories", "anchors": ["hydra/src/node_registry.rs: node_list, node_list_filtered, node_disconnect"]}
{"id": "C61", "title": "Shutdown protocols terminate the child and flush its signals", "statement": "shutdown(pid, how) returns only after the child's ProcessDown; BrutalKill sends Kill, Duration sends 'shutdown' and then Kill after the timeout, Infinity sends 'shutdown' only; afterwards no Exit message of that child is left in the mailbox and all other messages are kept in order.", "quantifier": "every mailbox and arrival order", "why_tests_cant": "all mailboxes", "anchors": ["hydra/src/shutdown.rs"]}
{"id": "C62", "title": "Application::run waits for the supervised process", "statement": "run returns exactly when the process returned by start has exited (or start failed); a termination signal makes it request 'shutdown' and, if the timeout fires first, Kill; test fails iff the exit reason is custom and not 'shutdown'.", "quantifier": "every message sequence", "why_tests_cant": "all sequences", "anchors": ["hydra/src/application.rs"]}
{"id": "C63", "title": "NodeOptions builders set their own field", "statement": "Each NodeOptions builder method changes exactly the option it is named after.", "quantifier": "every option value", "why_tests_cant": "all values", "anchors": ["hydra/src/node_options.rs"]}
{"id": "C64", "title": "Comparisons between Dest, Pid, Reference and names are symmetric and terminate", "statement": "a == b and b == a agree and return for every Dest and Pid/Reference/&str.", "quantifier": "every pair", "why_tests_cant": "recursion", "anchors": ["hydra/src/dest.rs: PartialEq impls"]}
{"id": "C65", "title": "Websocket command buffers", "statement": "The messages of a command buffer up to the first Close are sent in order, nothing after it, then the close frame; terminate is called at most once.", "quantifier": "every command buffer and socket outcome", "why_tests_cant": "all buffers", "anchors": ["hydra-websockets/src/websocket_handler.rs: websocket_process_commands", "hydra-websockets/src/websocket_command.rs"]}
{"id": "C66", "title": "Websocket handler loop", "statement": "Every websocket message and process message is passed to the matching callback in order, a Ping is answered with a Pong carrying the same data before the callback, and the process exits with the callback's error, the socket's error class or 'connection_closed'.", "quantifier": "every event sequence and handler", "why_tests_cant": "all handlers", "anchors": ["hydra-websockets/src/websocket_handler.rs: start_websocket_handler"]}
{"id": "C67", "title": "A panicking process exits with its panic message", "statement": "If a process panics with a string payload its exit reason is Custom(message); with any other payload Custom('Unknown error!'); if it returns, Normal; if it was sent an exit signal, the last reason set.", "quantifier": "every payload and history of exit signals", "why_tests_cant": "all payloads", "anchors": ["hydra/src/catch_unwind.rs", "hydra/src/process.rs: spawn_internal"]}
{"id": "C68", "title": "Task::await_many returns results in order or the first error", "statement": "await_many returns the results of all tasks in argument order if all succeed and otherwise the error of the first failing task in argument order; shutdown returns the result of a task that had finished and an error otherwise.", "quantifier": "every list of task outcomes", "why_tests_cant": "all lists", "anchors": ["hydra/src/task.rs: await_many, shutdown"]}
{"id": "C69", "title": "Semaphore permits are conserved", "statement": "At every moment granted permits plus available permits equal the initial count, under every interleaving of acquire, try_acquire and release; try_acquire fails exactly when none is available.", "quantifier": "every schedule", "why_tests_cant": "all schedules", "anchors": ["hydra/src/semaphore.rs"]}
{"id": "C70", "title": "Destination conversions preserve the destinations", "statement": "Converting pids, names, slices or vectors into Dests yields exactly these destinations in order.", "quantifier": "every list", "why_tests_cant": "all lists", "anchors": ["hydra/src/dest.rs: From impls"]}
{"id": "C71", "title": "The end of a registry ends its processes", "statement": "When a registry process is stopped or killed its table disappears, other registries are unaffected, and every process registered in it is told to exit: killed, or with 'shutdown' when it is stopped in an orderly way with a shutdown other than BrutalKill.", "quantifier": "every history of registry operations and every registry running at its end", "why_tests_cant": "all histories", "anchors": ["hydra/src/registry.rs: terminate_children, Drop for Registry"]}
{"id": "C72", "title": "A process started through a registry is found by lookup", "statement": "After lookup_or_start(name, key) has returned Ok(pid), lookup(name, key) returns that pid, whatever options the registry was started with.", "quantifier": "every history, key and registry options", "why_tests_cant": "depends on the combination of registry name and process name", "anchors": ["hydra/src/registry.rs: Registry::lookup, Registry::start, lookup_or_start_by_key"]}
{"id": "C73", "title": "ChildSpec builders set their own attribute and a permanent child cannot be significant", "statement": "Each ChildSpec builder method changes exactly the attribute it is named after, and no sequence of builder calls yields a child that is both permanent and significant.", "quantifier": "every sequence of builder calls", "why_tests_cant": "all sequences and values", "anchors": ["hydra/src/child_spec.rs: ChildSpec::significant, ChildSpec::restart"]}
{"id": "C74", "title": "Only well-formed frames are decoded and encodings are unambiguous", "statement": "Whatever bytes a peer sends, a frame the decoder yields is a valid value (no zero process or alias id in a send target, UTF-8 strings, integers in range), takes exactly one announced unit off the buffer, and two frames with the same encoding are the same (up to the flow label and scope id of an IPv6 address).", "quantifier": "every byte buffer and every pair of frames", "why_tests_cant": "adversarial inputs", "anchors": ["hydra/src/frame/mod.rs: Codec::decode", "hydra/src/frame/*.rs"]}
{"id": "C75", "title": "A down notice tells the truth", "statement": "Whenever a process receives ProcessDown for a local destination with a monitor reference and a reason, the process the destination stands for has left the registry with exactly that exit reason, or the reason is noproc and at some moment after the reference was handed out no such process (or name) existed. Whenever it receives NodeDown for a node, that node was known and neither connected nor being connected to.", "quantifier": "every schedule of every mix of concurrent calls, every moment of it, every receiver", "why_tests_cant": "the reason travels through several tables while other processes act; a wrong notice may need a particular interleaving", "anchors": ["hydra/src/monitor.rs: monitor_install, monitor_process_down", "hydra/src/process.rs: Drop for Process", "hydra/src/node_registry.rs: node_remote_supervisor_down"]}
{"id": "C76", "title": "An Exit message tells the truth", "statement": "Whenever a process that traps exits receives an Exit message from a local process with a reason, that process called exit on it with that reason, or has ended with that reason, or the receiver linked to it at a moment when it did not exist and the reason is noproc.", "quantifier": "every schedule of every mix of concurrent calls, every receiver", "why_tests_cant": "quantifies over interleavings of links, exits and deaths", "anchors": ["hydra/src/link.rs: link_install, link_process_down", "hydra/src/process_registry.rs: process_exit, process_exit_signal_linked"]}
{"id": "C77", "title": "What is received had arrived", "statement": "Every message that any form of receive returns to a process is the reading of something that was delivered to that very process.", "quantifier": "every reachable state of every schedule, every receiver, type and filter", "why_tests_cant": "all histories of partial scans, conversions and filters", "anchors": ["hydra/src/process_receiver.rs: select, process_item"]}
{"id": "C78", "title": "No message out of thin air", "statement": "If every value passed to send or send_after in a run, and every value that can be read from a Send frame of another node, belongs to a set, then every user message that anybody receives belongs to it: messages are neither invented nor altered by the runtime.", "quantifier": "every schedule, every set of values", "why_tests_cant": "absence over all schedules", "anchors": ["hydra/src/process_kernel.rs: process_send", "hydra/src/node_kernel.rs: node_forward_send", "hydra/src/process.rs: send_after"]}
{"id": "C79", "title": "Exit signals come before the notices of the end", "statement": "When a process ends, the exit signals it sends to the processes linked to it arrive before any notice of its end that says how it ended is delivered to anyone: whoever has been told how a process ended (and has not itself called link on it late, and was not the target of an exit call by it) has already received all its exit signals, and none arrives afterwards.", "quantifier": "every schedule of any number of concurrent API calls", "why_tests_cant": "an ordering between two messages over all interleavings of the ending process with everybody else", "anchors": ["hydra/src/process.rs: impl Drop for Process", "hydra/src/link.rs: link_process_down", "hydra/src/monitor.rs: monitor_process_down", "hydra/src/process_registry.rs: process_exit"]}
{"id": "C80", "title": "Notices are about what was monitored", "statement": "If Process::monitor, monitor_alias or spawn_monitor gave a process the reference r for target d, then every notice carrying r goes to that process, is a ProcessDown (never a NodeDown) and names exactly d as it was given (pid, or name and node); if Node::monitor gave r for node n, every notice carrying r goes to that process and is a NodeDown for n.", "quantifier": "every script of the monitoring process and every interleaving of its steps with arbitrary concurrent API calls, frames and ends of connections", "why_tests_cant": "references, tables of monitors of processes and of nodes, and clean-ups of both are shared by all threads; a mix-up needs a particular interleaving", "anchors": ["hydra/src/process.rs: monitor, monitor_alias", "hydra/src/monitor.rs: monitor_install, monitor_process_down", "hydra/src/node_registry.rs: node_process_monitor_down, node_remote_supervisor_down", "hydra/src/node.rs: monitor"]}
{"id": "C81", "title": "Frames cross a connection in order, once, without gaps", "statement": "Over a connection between two nodes the frames that arrive at the other node (pings and pongs aside) are, in order, without gaps, repetition or alteration, the ones handed to the connection: first those that were waiting for it, then every later one; only heartbeats are added, and once the sender's mailbox, the socket and the reader's buffer are drained everything has arrived.", "quantifier": "every sequence of frames handed over, every interleaving of both ends' sender, receiver and supervisor, every cut of the byte stream into reads, every moment of a failure", "why_tests_cant": "schedules, cuts of the stream and failure points are unbounded", "anchors": ["hydra/src/node_remote.rs: node_remote_sender, node_remote_receiver", "hydra/src/node_registry.rs: node_send_frame, node_register_workers", "hydra/src/frame/mod.rs: Codec"]}
{"id": "C82", "title": "Heartbeats: one pong per ping, pings only in silence", "statement": "A node writes at most one pong for each ping it has received, and exactly one when its connection processes run and are idle; it writes a ping only when it has written nothing for heartbeat_interval.", "quantifier": "every timed run of a connection", "why_tests_cant": "all interleavings of receiver, supervisor and sender, at all times", "anchors": ["hydra/src/node_remote.rs: node_remote_sender, node_remote_receiver, node_remote_supervisor"]}
{"id": "C83", "title": "A peer is declared dead after heartbeat_timeout of silence, not before", "statement": "A node declares its peer dead for a timeout only if no frame has arrived for heartbeat_timeout; and a node whose receiver is scheduled within d never goes on with a connection on which nothing has arrived for heartbeat_timeout + d.", "quantifier": "every timed run of a connection", "why_tests_cant": "all timings", "anchors": ["hydra/src/node_remote.rs: node_remote_receiver"]}
{"id": "C84", "title": "A healthy idle connection stays up", "statement": "If one node's heartbeat_interval plus the delays of its sender and of the link is less than the heartbeat_timeout configured on the other node, that node never declares the connection dead while the sender runs, whatever is or is not sent.", "quantifier": "every timed run of a connection whose sender and link keep to their delays, every sequence of option builders", "why_tests_cant": "all timings and all option values; the failing run is 45 s of silence", "anchors": ["hydra/src/node_remote.rs: node_remote_sender, node_remote_receiver", "hydra/src/node_options.rs: heartbeat_timeout"]}
{"id": "C85", "title": "Messages from one sender arrive in the order they were sent", "statement": "When a task sends messages to a process one after the other - with Process::send to its pid, or, in the receiver of a connection, by the arrival of frames for it - they arrive in this order, without gaps or repetitions, whatever others do meanwhile; and all of them arrive if the process is still there in the end.", "quantifier": "every schedule, every number of messages, every mixture with other calls of the same and of other tasks (other senders use other message types, so that arrivals can be told apart)", "why_tests_cant": "all interleavings of the sends' steps with arbitrary calls", "anchors": ["hydra/src/process.rs: send", "hydra/src/process_registry.rs: process_sender", "hydra/src/node_remote.rs: node_remote_receiver"]}
{"id": "C86", "title": "Messages from one sender arrive in order across nodes", "statement": "Messages a task sends to a process of another node over a connection that stays up arrive there in the order they were sent, without gaps or repetitions; and all of them arrive if the connection delivers everything it was given and the process is still there.", "quantifier": "every schedule on both nodes, every timing and fragmentation on the network, every number of messages", "why_tests_cant": "all interleavings on two nodes and all cuts of the byte stream", "anchors": ["hydra/src/process.rs: send", "hydra/src/node_registry.rs: node_send_frame", "hydra/src/node_remote.rs: node_remote_sender, node_remote_receiver", "hydra/src/frame/mod.rs: Codec"]}
{"id": "C87", "title": "A link is never forgotten, in every schedule", "statement": "If a process has linked to another one, then whenever that one ends, the linked process is told: an Exit message with the reason if it traps exits, its own termination otherwise (unless the reason is Normal). No interleaving of the end with other calls loses the signal.", "quantifier": "every schedule of every set of calls around the link and the end, every reason", "why_tests_cant": "a lost signal needs one particular interleaving of the link, the end and other calls", "anchors": ["hydra/src/link.rs: link_install, link_create, link_process_down", "hydra/src/process.rs: Drop for Process", "hydra/src/process_registry.rs: process_exists_lock, process_exit_signal_linked"]}
{"id": "C88", "title": "The processes of a connection end together", "statement": "A connection to another node is run by a supervising process, a sender and a receiver. When one of the three ends, the other two end as well, so that no half-open connection remains.", "quantifier": "every schedule, every order in which the three end, every abnormal reason", "why_tests_cant": "all interleavings of three ends with arbitrary other calls", "anchors": ["hydra/src/node_remote.rs: node_remote_supervisor, node_remote_sender, node_remote_receiver", "hydra/src/process.rs: spawn_link", "hydra/src/link.rs: link_process_down"]}
{"id": "C89", "title": "Stopping the local node ends its connections", "statement": "After Node::stop the connections of the node end (for other nodes it is the same as the node going down): the processes of every connection end, and no message comes in any more.", "quantifier": "every reachable state with connections dialled or accepted, every schedule after the stop", "why_tests_cant": "depends on which side opened the connection and on the order in which processes end", "anchors": ["hydra/src/node_registry.rs: node_local_stop", "hydra/src/node_remote.rs: node_remote_supervisor, node_remote_connector", "hydra/src/node_local.rs: node_local_supervisor"]}
{"id": "C90", "title": "A started node stays started", "statement": "Once Node::start has returned, Node::alive() is true until Node::stop is called - also when the node was started and stopped before.", "quantifier": "every history of starts and stops, every schedule afterwards", "why_tests_cant": "the clean-up of an earlier node may run at any later time", "anchors": ["hydra/src/node_registry.rs: node_local_start, node_local_stop, node_local_panic, node_alive", "hydra/src/node_local.rs: Drop for NodeLocalSupervisor"]}
{"id": "C91", "title": "A monitor in place reports exactly once, in every schedule", "statement": "Once Process::monitor on a running local process has returned, then whatever calls are made afterwards and however they overlap: as long as both processes live and the monitor is not removed no ProcessDown with its reference arrives anywhere, and when the target has ended - and the calls in progress have returned - the monitoring process, if it is still there, has got exactly one, with the destination used and the target's exit reason.", "quantifier": "every schedule of every set of calls after the monitor call", "why_tests_cant": "the end of the target takes many steps that interleave with those of every other call", "anchors": ["hydra/src/process.rs: Process::monitor", "hydra/src/monitor.rs: monitor_install, monitor_create, monitor_process_down", "hydra/src/process_registry.rs: process_drop"]}
{"id": "C92", "title": "Local objects go to local processes", "statement": "Sending a message that contains a Local<T> to local destinations delivers the object itself, without a panic; if a destination is on another node the call panics and none of the destinations has been given anything; a Local is never received that was not sent as an object on this node. Messages without a Local are sent exactly as described by C29.", "quantifier": "every destination list, message, serialiser, state and schedule", "why_tests_cant": "depends on the order and mixture of local, remote, named and alias destinations, and on the state of the tables", "anchors": ["hydra/src/local.rs: Local", "hydra/src/process_kernel.rs: process_send, process_send_optimal", "hydra/src/node_kernel.rs: node_process_send_with_name", "hydra/src/serialize.rs: serialize_value"]}
{"id": "C93", "title": "The process of the local node serves its requests and lives as long as its listener", "statement": "The process that Node::start starts answers every request for the node's supervisor, in the order of arrival, with exactly one answer to the process that asked; it goes on whatever other processes end, and ends when the listener ends. Nothing else ends it.", "quantifier": "every sequence of arriving messages and every way the process's turns fall between them", "why_tests_cant": "messages arrive at any time and in any mixture; one bad message in a long history decides", "anchors": ["hydra/src/node_local.rs: node_local_supervisor, node_local_listener", "hydra/src/node_kernel.rs: node_local_start"]}
{"id": "C94", "title": "The console server tells the truth and keeps serving", "statement": "Every request of a console (connect, list_nodes, list_processes, processes_info, runtime_info) is answered, in the order of arrival, by an answer of the kind the client expects, which says what was the case on that node while the request was handled; handling a request changes nothing, and no request takes the server down.", "quantifier": "every sequence of requests, every state of the node, every schedule of other calls", "why_tests_cant": "the tables change between the reads a request makes", "anchors": ["hydra/src/console.rs: ConsoleServer", "hydra/src/gen_server.rs: GenServer::start", "hydra/src/process.rs: Process::info, Process::list"]}
{"id": "C95", "title": "A websocket server accepts connections while it runs", "statement": "Starting a websocket server succeeds exactly when its address can be bound, and fails with the documented reason otherwise, leaving no process behind; while it runs it accepts connections, each of which gets its handler exactly when its handshake completes within the time limit - TLS included - and the handler's accept agreed; when it terminates it stops accepting.", "quantifier": "every outcome of bind, every timing and outcome of the handshakes, every state of the node", "why_tests_cant": "timing and failures come from outside", "anchors": ["hydra-websockets/src/websocket_server.rs: WebsocketServer, server_accept, server_accept_tls, server_process"]}
{"id": "C96", "title": "#[hydra::main] and #[hydra::test] do what their bodies do", "statement": "A function marked #[hydra::main] returns once its body has ended; a function marked #[hydra::test] passes if its body runs to its end and fails if it panics - whatever other processes do meanwhile.", "quantifier": "every schedule of every set of calls beside the body, every way the body ends", "why_tests_cant": "the end of the body races with the registration of its process and of the application process; a test cannot test when it is not run", "anchors": ["hydra-macros/src/entry.rs: main, test", "hydra/src/application.rs: Application::run, Application::test", "hydra/src/process.rs: spawn_internal, Drop for Process"]}
{"id": "C97", "title": "No calls ever deadlock on each other", "statement": "Calls of the crate - processes, links, monitors, aliases, timers, names, sends, nodes, frames of other nodes, registries, hash rings - made by any number of threads in any order never wait for each other in a circle: as long as some call has not returned, some call can go on; if no new calls begin, every call returns; and a call that has returned holds no lock.", "quantifier": "every set of calls with all arguments, every schedule, every outcome of every lookup, every number of shards and every hash, locks that prefer writers and locks that do not", "why_tests_cant": "a deadlock needs particular threads to be inside particular nested sections at the same time, and keys that hash to the same shard", "anchors": ["hydra/src/node_registry.rs: node_local_start, node_local_stop, node_register_workers, node_send_frame, node_accept, node_register, node_remote_supervisor_down, node_disconnect", "hydra/src/process_registry.rs: process_register, process_exists_lock", "hydra/src/registry.rs: lookup_process, remove_process, register_process", "hydra/src/link.rs", "hydra/src/monitor.rs", "hydra/src/alias.rs", "hydra/src/hash_ring.rs"]}
{"id": "C98", "title": "Callbacks of a hash ring may use the ring", "statement": "The closure given to HashRing::map_node, and the iterator given to add_nodes or set_nodes, may themselves use the crate, the ring included, and the call returns.", "quantifier": "every closure or iterator that does something with the crate, every key, every schedule of other calls, every hash", "why_tests_cant": "whether the closure runs under a lock depends on whether the key has an override, and whether it then waits for itself on the shard the hash picks", "anchors": ["hydra/src/hash_ring.rs: HashRing::map_node, HashRing::add_nodes, HashRing::set_nodes, HashRing::add_override"]}
{"id": "C99", "title": "A node written as text is the node it names", "statement": "Node::from(\"name@address\") is the node with that name and address, Node::from(\"local\") the local node, and any other text panics; a node compares equal to exactly the texts that convert to it, in both directions, so no text equals two nodes; comparing with a (name, address) pair agrees with comparing with the text.", "quantifier": "every text, every name, every IPv4 and IPv6 socket address, every node", "why_tests_cant": "the conversion and the comparison parse the text separately and must agree on every text, including names and addresses with unusual characters", "anchors": ["hydra/src/node.rs: impl From<&str> for Node, impl From<String> for Node, impl PartialEq<&str> for Node, impl PartialEq<(String, SocketAddr)> for Node"]}
{"id": "C100", "title": "A message sent to another node arrives as the value that was sent", "statement": "A value that Process::send, GenServer::cast or GenServer::call hands to a process of another node arrives there as the same value: every unit, bool, integer, float, string, option, list, tuple, map, struct and enum, nested in any way, including the wrapping messages of the GenServer protocol.", "quantifier": "every value of every type built from serde's shapes, of every size and nesting up to the reader's limit", "why_tests_cant": "there are infinitely many types and values, and the encoding chooses between many forms by size and by the shape of the content", "anchors": ["hydra/src/serialize.rs: serialize_value, deserialize_value", "hydra/src/gen_server.rs: GenServerMessage", "hydra/src/process_kernel.rs: process_send"]}
{"id": "C101", "title": "A message from another node is only received as a value of the type it was sent as", "statement": "Bytes from another node decode only as the type that was sent: a receiver of another message type does not get a value made up from them, and the variants of two enums are never mistaken for each other.", "quantifier": "every pair of types built from serde's shapes, every value", "why_tests_cant": "it is a statement about every pair of types; the bytes carry no type, so only their shape keeps types apart", "anchors": ["hydra/src/serialize.rs: deserialize_value", "hydra/src/process_receiver.rs: process_item"]}
{"id": "C102", "title": "Exit reasons made from and compared with texts", "statement": "A reason made from a text is Custom with that text, whatever the text (\"normal\" and \"kill\" included); a reason equals a text, in either direction, exactly if it is the reason made from it; every reason is of exactly one of the four kinds that is_normal, is_kill, is_ignore and is_custom test.", "quantifier": "every reason, every text", "why_tests_cant": "the statement is about every text and relates six functions written separately", "anchors": ["hydra/src/exit_reason.rs: ExitReason, From<String>, From<&str>, PartialEq<&str>, PartialEq<ExitReason> for &str"]}
{"id": "C103", "title": "What is taken out of a message is a value of the type asked for", "statement": "Whatever bytes arrive from another node: if a receiver takes a value of type T out of them, it is a value of T - integers are within the bounds of their type, fields and variants are those of T; an id in it is never 0 and has 64 bits, an address in it has 4 or 16 octets and a 16 bit port; a GenServer message is one of cast, call, reply and stop, with a sender that could exist.", "quantifier": "every byte sequence and every type", "why_tests_cant": "unboundedly many byte sequences and types", "anchors": ["hydra/src/serialize.rs: deserialize", "hydra/src/pid.rs: PidWire", "hydra/src/reference.rs: ReferenceWire", "hydra/src/gen_server.rs: GenServerMessage"]}
{"id": "C104", "title": "Which messages a struct or enum is read from", "statement": "A struct is read from a map exactly if every key could be a field name or number, no field is given twice, every given field has a value of its type and every field that is not given is optional (and is then None); unknown fields are skipped and the order does not matter. A variant is read exactly from its name or number alone if it has no payload, or from a one-entry map from it to the payload.", "quantifier": "every message and every struct and enum type", "why_tests_cant": "unboundedly many messages and types", "anchors": ["hydra/src/serialize.rs: deserialize", "hydra/src/gen_server.rs: GenServerMessage", "hydra/src/from.rs: From"]}
{"id": "C105", "title": "What has travelled once travels on unchanged", "statement": "A value that a process took out of bytes that arrived - whoever made the bytes - arrives as exactly that value when it is sent on to another node, and so does every later copy, over any number of nodes. (On its first way a value may change: Some(None) arrives as None.)", "quantifier": "every type, every byte sequence it is read from, every number of hops", "why_tests_cant": "unboundedly many byte sequences and types", "anchors": ["hydra/src/serialize.rs: serialize, deserialize", "hydra/src/process.rs: Process::send"]}
{"id": "C106", "title": "Messages are written in MessagePack, and all of MessagePack is read", "statement": "The bytes of a message are a word of the MessagePack format for its value, and the shortest one. The reader accepts exactly the byte sequences that begin with a word of the format that is not nested too deeply, whichever of the possible words for the value it is, and takes it for what it means. No word is the beginning of another one and none has two meanings.", "quantifier": "every message and every byte sequence", "why_tests_cant": "unboundedly many byte sequences; ambiguity is a property of pairs of them", "anchors": ["hydra/src/serialize.rs: serialize, deserialize"]}
{"id": "C107", "title": "Message types that cannot be confused are never confused, and their messages arrive as values, in order", "statement": "If two types of messages differ in one of the ways that show in the bytes - words of different kinds, disjoint ranges of integers, tuples of different lengths, a required field or all variants of one missing in the other, or such a difference further inside - then no value of the first is ever received as one of the second. In a program in which no other type of messages can be confused with T, the values of T that a process sends to a process of another node over one connection arrive there as these values, in the order sent, without gaps or repetitions, and all of them if the connection and both processes last.", "quantifier": "every pair of types, every value; every list of message types of a program, every schedule, every timing of the connection", "why_tests_cant": "unboundedly many types and values, and all interleavings on two nodes and a connection", "anchors": ["hydra/src/serialize.rs: serialize, deserialize", "hydra/src/process.rs: Process::send", "hydra/src/process_receiver.rs: receive", "hydra/src/node_remote.rs: node_remote_sender, node_remote_receiver"]}
{"id": "C108", "title": "An alias stays active for its owner until the owner gives it up", "statement": "Once Process::alias has returned a reference to a process, the alias stays active - messages sent to it reach that process and its unalias returns true - until the process itself passes the reference to unalias, the process ends or, for a one-shot alias, a message has been sent to it. No other process, other reference, ended process, monitor, demonitor, timer, lost connection or frame of another node takes it away.", "quantifier": "every process and alias, every schedule of any calls of any processes, begun before or after the call of alias", "why_tests_cant": "all interleavings of all other calls with the three steps of alias and with everything that follows", "anchors": ["hydra/src/process.rs: Process::alias, Process::unalias, Process::demonitor, Drop for Process", "hydra/src/alias.rs: alias_create, alias_destroy, alias_destroy_all, alias_retrieve", "hydra/src/monitor.rs: monitor_process_down, monitor_destroy_all", "hydra/src/node_registry.rs: node_process_monitor_down, node_remote_supervisor_down"]}
