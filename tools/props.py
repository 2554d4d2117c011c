import json
P=[]
def p(title, statement, quant, why, anchors):
    P.append(dict(id="C%02d"%(len(P)+1), title=title, statement=statement, quantifier=quant, why_tests_cant=why, anchors=anchors))
# ---- HashRing
p("Hash ring lookup is the clockwise successor",
  "After any sequence of add_node/add_nodes/set_nodes/remove_node/clear calls, find_node(k) for a key without an override returns None exactly when the ring holds no node, and otherwise the node whose key hash is the smallest one >= hash(k), or, if there is none, the node with the smallest key hash.",
  "every hash function, every key, every sequence of ring operations of any length",
  "the answer depends on the relative order of all 64-bit hashes in the ring and of the key; tests sample a handful of keys under a random hasher",
  ["hydra/src/hash_ring.rs: HashRing::find_node, map_node, add_node, remove_node, add_nodes, set_nodes"])
p("Hash ring node table behaves like a map",
  "add_node, add_nodes, set_nodes and remove_node act on the ring exactly like insert/bulk insert/replace/remove on a map from key hash to node: add_node and remove_node return the value previously stored for that key hash (None if absent), the last write for a key wins, and no other key's node changes.",
  "every sequence of ring operations, every key and node",
  "needs every interleaving of inserts, overwrites and removals at every position of the sorted vector",
  ["hydra/src/hash_ring.rs: add_node, remove_node, add_nodes, set_nodes"])
p("Hash ring minimal disruption",
  "Adding a node changes the owner of a key only if the new owner is the node just added; removing a node changes the owner of a key only if its previous owner was the node just removed.",
  "every ring reachable by operations, every added/removed node, every looked-up key",
  "it is a statement about all keys of a hash space of 2^64 points at once",
  ["hydra/src/hash_ring.rs: add_node, remove_node, map_node"])
p("Hash ring overrides pin exactly their key",
  "A key with an override resolves to the override whatever nodes are added, removed, set or cleared; adding or removing an override changes the resolution of no key with a different hash; removing it restores the ring's own answer; add_overrides adds to and set_overrides replaces the set of overrides.",
  "every sequence of ring and override operations, every key",
  "requires all interleavings of ring and override updates",
  ["hydra/src/hash_ring.rs: add_override, add_overrides, set_overrides, remove_override, map_node"])
p("HashRing::clear clears nodes and overrides",
  "As documented ('Clears all of the nodes and overrides from the hash ring'), after clear() every lookup returns None.",
  "every reachable ring, every key",
  "the shipped test only looks up a key without override",
  ["hydra/src/hash_ring.rs: clear"])
p("Hash ring concurrent updates and snapshots",
  "When add_node/remove_node/add_nodes/set_nodes/clear run concurrently from any number of threads, no update is lost (the final node table is that of some serial order of the calls) and every concurrent lookup is answered from a node table that existed between two complete updates, never from a partially updated one. A key that has an override before and after a concurrent set_overrides is never seen without one.",
  "every number of threads and every interleaving of their steps",
  "races only show under particular schedules",
  ["hydra/src/hash_ring.rs: ring_lock, ArcSwap ring, set_overrides"])
# ---- codec
p("Frame encode/decode round trip",
  "Encoding any protocol frame whose encoded body is smaller than 4 GiB and decoding the result yields exactly the same frame and consumes exactly the bytes written, whatever bytes precede the frame in the output buffer or follow it in the input buffer.",
  "every frame of every kind with every field value, every output-buffer prefix and input-buffer suffix",
  "unbounded strings, vectors, options and 64-bit integers",
  ["hydra/src/frame/mod.rs: Codec::encode, Codec::decode", "hydra/src/frame/*.rs"])
p("Frame stream is independent of packet boundaries",
  "If a sequence of frames is encoded back to back and the byte stream reaches the peer cut into chunks at arbitrary positions, the decoder yields exactly that sequence of frames, in order, with nothing lost, duplicated or merged.",
  "every list of frames and every way to cut the stream into chunks",
  "there are exponentially many cuts; the 0.1.25 bug (several frames encoded at once) was in this area",
  ["hydra/src/frame/mod.rs: Codec"])
p("An incomplete frame is never consumed",
  "While fewer bytes than the announced frame are buffered, decode returns Ok(None) and leaves the buffer unchanged; it never yields a frame, an error, or consumes input early.",
  "every frame and every proper prefix of its encoding",
  "every prefix of every frame",
  ["hydra/src/frame/mod.rs: Codec::decode"])
p("Frame boundaries hold for arbitrary peer bytes",
  "For any bytes a peer may send, the frame decoded from one length-prefixed unit depends only on the bytes of that unit, and a complete unit is always either decoded or rejected.",
  "every byte string received from the network",
  "needs adversarial inputs",
  ["hydra/src/frame/mod.rs: Codec::decode"])
# ---- wire identity
p("Pids and references keep their identity across the wire",
  "A pid (or reference) serialised on a started node and deserialised on another started node denotes the same process on the same node; sent back home it becomes the original local pid; distinct pids never collapse into one; a pid from a node that is not distributed deserialises to a pid that addresses no node.",
  "every pid, every pair of nodes, every state of their node tables",
  "the result depends on the history of node ids on both sides",
  ["hydra/src/pid.rs: Serialize, Deserialize", "hydra/src/reference.rs: Serialize, Deserialize", "hydra/src/node_registry.rs: node_register, node_lookup_local, node_lookup_remote"])
p("Node ids are stable, unique and never reused",
  "Within a run, two different nodes never share a node id, a node keeps its id until it is forgotten, and an id that has been forgotten is never given to any node again, so pids of a forgotten node stay unreachable even after the node reconnects.",
  "every sequence of register/connect/accept/disconnect/forget/stop operations",
  "depends on whole histories",
  ["hydra/src/node_registry.rs: node_register, node_accept, node_forget, node_local_stop"])
p("Node values survive the wire",
  "A Node value serialised on a started node and deserialised on another started node denotes the same node (Local exactly when it is the receiver).",
  "every node value and pair of nodes",
  "depends on the state of both nodes",
  ["hydra/src/node.rs: Serialize, Deserialize"])
p("The handshake authenticates the peer's name and address",
  "A Hello is accepted only if its challenge was produced by a holder of the same cookie for exactly this name and broadcast address; a node with the same cookie is always accepted.",
  "every cookie, name, address and challenge",
  "quantifies over all names/addresses and adversarial hellos",
  ["hydra/src/frame/hello.rs: Hello::new, Hello::validate"])
p("A connector only talks to the node it asked for",
  "An outgoing connection is promoted to a connected node only if the peer's hello validates and carries exactly the name and address that were dialled; otherwise the attempt fails without registering the peer.",
  "every hello received and every node dialled",
  "adversarial peers",
  ["hydra/src/node_remote.rs: node_remote_connector, node_remote_accepter"])
# ---- processes
p("Pids and references are never reused",
  "Every spawned process gets a pid, and every Reference::new a reference, different from all those handed out before on this node, in every interleaving of concurrent callers.",
  "all histories and schedules of fewer than 2^64 allocations",
  "long histories and races",
  ["hydra/src/process.rs: ID, spawn_internal", "hydra/src/reference.rs: Reference::new"])
p("A registered name has exactly one live owner",
  "At every moment each name is owned by at most one process and each process owns at most one name; whereis(name) returns the process that registered it until it is unregistered or the process exits, and then the name is free again; register fails without effect for remote, dead or already named processes and for names held by others.",
  "every history of spawn/register/unregister/exit, and every schedule",
  "depends on histories and on races between unregister and register",
  ["hydra/src/process_registry.rs: process_register, process_unregister, process_name_lookup", "hydra/src/process.rs: Drop for Process"])
p("Exit signals follow the documented table",
  "Process::exit(pid, reason): Kill always terminates the target with reason Kill; a custom reason terminates a target that does not trap exits (or exits itself) with that reason and is delivered as an Exit message to one that traps; Normal/Ignore from another process never terminate the target, and are delivered as a message only if it traps; no other process, mailbox, name, link or monitor is affected.",
  "every process table, target, sender and reason",
  "the full state space including non-interference",
  ["hydra/src/process_registry.rs: process_exit", "hydra/src/process.rs: Process::exit"])
p("Links propagate exits to exactly the linked processes",
  "When a process exits with reason r, each local process linked to it at that moment receives exactly one signal: an Exit(pid, r) message if it traps exits, termination with reason r if it does not and r is not Normal, nothing otherwise; processes not linked to it receive nothing; linking to a process that does not exist yields a 'noproc' exit signal.",
  "every process table, link graph and exit reason",
  "all link graphs and cascades",
  ["hydra/src/link.rs: link_process_down, link_install, link_create", "hydra/src/process_registry.rs: process_exit_signal_linked"])
p("Unlink removes the link in both directions",
  "After Process::unlink(pid) neither process is affected by the exit of the other.",
  "every process table and link graph",
  "the shipped test only exercises one direction",
  ["hydra/src/link.rs: link_destroy", "hydra/src/process.rs: Process::unlink"])
p("A monitor reports the target's exit exactly once",
  "For each monitor call on a local process, if the target does not exist a ProcessDown with 'noproc' is queued immediately; otherwise exactly one ProcessDown with this reference, the destination used and the target's exit reason is queued to the monitoring process when the target exits, and never before.",
  "every history in which API calls do not overlap",
  "all histories",
  ["hydra/src/monitor.rs: monitor_install, monitor_process_down, monitor_create"])
p("A monitor reports the target's exit under every schedule",
  "The guarantee of the previous property holds in every interleaving of the monitor call with the target's exit: no ProcessDown is ever lost, and none is ever duplicated.",
  "every schedule of the atomic table operations",
  "the window is a few instructions wide",
  ["hydra/src/process_registry.rs: process_exists_lock", "hydra/src/monitor.rs: monitor_install, monitor_process_down", "hydra/src/link.rs: link_create"])
p("Demonitor silences the monitor",
  "After Process::demonitor(ref) returns, the process never receives a ProcessDown for ref, even if it was already queued ('discarded automatically').",
  "every mailbox content and every earlier use of receivers",
  "depends on what selective receives scanned before",
  ["hydra/src/process.rs: Process::demonitor", "hydra/src/process_receiver.rs: process_item"])
p("Aliases: a one-shot alias delivers at most one message",
  "A message sent to an alias reaches the owner iff the alias is active; a reply alias delivers at most one message ever, under every interleaving of concurrent senders; unalias returns true exactly when the alias was active, and after it (or the owner's exit) nothing is delivered through it.",
  "every history and schedule of senders",
  "race between senders",
  ["hydra/src/alias.rs: alias_retrieve, alias_create, alias_destroy", "hydra/src/process.rs: alias, unalias, monitor_alias", "hydra/src/process_kernel.rs"])
p("Process exit releases everything it held",
  "When a process has exited, its pid is not alive and not listed, its name is free, no link, monitor or alias table mentions it as owner, and nothing it owned remains.",
  "every history of the process's API calls",
  "all histories",
  ["hydra/src/process.rs: Drop for Process", "hydra/src/monitor.rs: monitor_destroy_all", "hydra/src/alias.rs: alias_destroy_all"])
p("Mailbox order and selective receive",
  "select(filter) returns the oldest queued message (in arrival order, including messages skipped by earlier receives) of the wanted type that satisfies the filter; all other messages stay queued in arrival order, none is lost or duplicated; receive() without filter returns messages in arrival order.",
  "every mailbox content, filter and sequence of receives and sends",
  "all mailboxes and filters",
  ["hydra/src/process_receiver.rs: select, receive, process_item, convert_item"])
p("A receive that times out loses nothing",
  "If a receive wrapped in a timeout is abandoned after having scanned any number of messages, every scanned message is still received later, in order.",
  "every mailbox, filter and abandonment point",
  "cancellation at every await point",
  ["hydra/src/process_receiver.rs: select", "hydra/src/process.rs: Process::timeout"])
p("ProcessReceiver::remove removes exactly the matching queued messages",
  "remove(filter) deletes exactly the already queued messages of the wanted type that match and keeps all others in order.",
  "every mailbox and filter",
  "all mailboxes",
  ["hydra/src/process_receiver.rs: remove"])
p("Send delivers once to each existing destination",
  "Process::send to one or many destinations appends the message exactly once to the mailbox of every existing local destination, once per mention, one frame per remote node carrying exactly the targets on that node in order, and affects nothing else; a destination that does not exist is ignored.",
  "every destination list and process table",
  "all destination lists with duplicates, names, aliases and remote nodes",
  ["hydra/src/process_kernel.rs: process_send, process_send_optimal, process_send_unoptimal"])
p("A spawned process is fully registered",
  "When spawn returns, the pid is alive or has exited; a process can rely on its own flags, name registration and exit clean-up from its first instruction on, in every schedule.",
  "every schedule of the spawning thread and the new task",
  "needs the new task to run before the spawning thread's next instruction",
  ["hydra/src/process.rs: spawn_internal"])
p("Timers deliver once, cancel prevents delivery, read reports the rest",
  "send_after delivers its message exactly once and not before the duration elapsed unless cancelled; after cancel_timer the message is not delivered; read_timer returns the remaining time while pending and None once fired or cancelled.",
  "every history and schedule of timers",
  "time and races",
  ["hydra/src/process.rs: send_after, cancel_timer, read_timer", "hydra/src/process_registry.rs: process_register_timer, process_destroy_timer, process_read_timer"])
p("Process::info and flags reflect the process",
  "For a live local process, info reports its registered name, trap flag, linked pids and the pids monitoring it, and set_flags/flags round-trip without affecting others.",
  "every process table",
  "all tables",
  ["hydra/src/process.rs: info, flags, set_flags", "hydra/src/process_registry.rs: process_info", "hydra/src/link.rs: link_fill_info", "hydra/src/monitor.rs: monitor_fill_info"])
# ---- GenServer
p("GenServer handles messages one at a time and terminates cleanly",
  "A GenServer whose init succeeded handles the messages of its mailbox one by one in order with the matching callback; terminate is invoked exactly once, last, with reason r, exactly when a callback returned Err(r), a Stop(r) arrived or (trapping exits) the parent's exit signal r arrived, and the process then exits with r; if init fails no callback and no terminate runs and the process exits with init's reason.",
  "every server implementation and message sequence",
  "all implementations",
  ["hydra/src/gen_server.rs: start_gen_server"])
p("start/start_link report the outcome of init",
  "start returns Ok(pid) iff the name (if any) could be registered and init returned Ok within the timeout; otherwise Err with 'already_started', init's reason or 'timeout', and the process does not serve any message.",
  "every init outcome, name table and timeout",
  "all outcomes",
  ["hydra/src/gen_server.rs: start_gen_server"])
p("GenServer::call returns the reply to this call",
  "call returns Ok(m) only if m was sent as the reply to this very call, Err(ServerDown(r)) only if the server exited with r (or did not exist), Err(Timeout) otherwise; other messages in the caller's mailbox are untouched; and after the call has returned, nothing belonging to it (reply or down message) is ever seen by the caller.",
  "every mailbox content, server behaviour and arrival order",
  "late replies",
  ["hydra/src/gen_server.rs: call, reply", "hydra/src/from.rs"])
p("GenServer::stop reports the exit reason",
  "stop(server, r) returns Ok iff the server goes down with exactly r, Err(actual reason) if it goes down with another one (noproc if it does not exist), and Err('timeout') after the timeout.",
  "every server outcome",
  "all outcomes",
  ["hydra/src/gen_server.rs: stop"])
# ---- Supervisor
p("Restart policy",
  "When a supervised child exits: a permanent child is always restarted, a transient child is restarted iff the reason is neither normal nor 'shutdown', a temporary child never; a child that is not restarted is removed from the supervisor; an exit of an unknown pid changes nothing.",
  "every supervisor state, child and exit reason",
  "all states",
  ["hydra/src/supervisor.rs: restart_exited_child", "hydra/src/restart.rs"])
p("Restart strategies restart exactly the prescribed children",
  "OneForOne restarts only the exited child; RestForOne terminates and restarts the exited child and those started after it; OneForAll all children; all others keep running with the same pid; restarts happen in child order and specs/ids/order of children are preserved.",
  "every supervisor state and start outcome",
  "all child lists",
  ["hydra/src/supervisor.rs: restart, restart_multiple_children, terminate_child_by_index, start_child_by_index"])
p("Restart intensity",
  "The supervisor gives up (shuts down) exactly when a restart is the (max_restarts+1)-th within the last max_duration; otherwise it restarts.",
  "every sequence of restart times",
  "all time sequences",
  ["hydra/src/supervisor.rs: add_restart"])
p("Automatic shutdown",
  "With auto_shutdown Never a child exit never shuts the supervisor down by itself; with AnySignificant it does as soon as one significant child terminates without restart; with AllSignificant exactly when the last significant child has terminated.",
  "every supervisor state and exiting child",
  "all states",
  ["hydra/src/supervisor.rs: check_auto_shutdown", "hydra/src/shutdown.rs: AutoShutdown"])
p("Temporary children are never restarted",
  "As documented, a temporary child is never restarted, regardless of the supervision strategy, and its specification is deleted when it terminates (by itself or by terminate_child).",
  "every strategy, supervisor state and cause",
  "combinations of strategies",
  ["hydra/src/restart.rs", "hydra/src/supervisor.rs: restart_multiple_children, terminate_child_by_id"])
p("Child ids stay unique and the supervisor API never crashes the supervisor",
  "At all times child ids are unique; start_child with an id in use returns AlreadyStarted/AlreadyPresent and changes nothing; no sequence of API calls and child exits makes the supervisor panic.",
  "every history of supervisor operations",
  "all histories",
  ["hydra/src/supervisor.rs: start_new_child, add_child, remove_child, delete_child_by_id"])
p("Ordered start and reverse-ordered termination",
  "Children are started in order (a failure terminates those already started and fails init) and terminated in reverse start order; after termination no child is left running.",
  "every child list and start outcome",
  "all lists",
  ["hydra/src/supervisor.rs: start_children, init_children, terminate_children"])
p("terminate_child / restart_child / delete_child",
  "terminate_child stops the child and keeps its specification so that it is not running until restarted; restart_child starts it only if it is neither running nor restarting (else Running/Restarting/NotFound) and delete_child removes only a stopped child; no other child is affected.",
  "every supervisor state",
  "all states",
  ["hydra/src/supervisor.rs: terminate_child_by_id, restart_child_by_id, delete_child_by_id"])
p("count_children and which_children agree with the supervisor",
  "which_children lists every child once in order with its pid and restarting flag, count_children's specs = active+inactive = workers+supervisors = length of which_children, and active counts exactly the children with a running process.",
  "every supervisor state",
  "all states",
  ["hydra/src/supervisor.rs: count_all_children, which_children_info"])
# ---- Registry
p("A registry key has at most one process",
  "lookup/lookup_or_start/start_process: each key maps to at most one pid; lookup_or_start returns the registered pid without starting anything if there is one and otherwise starts and registers exactly one; start_process on a registered key returns AlreadyStarted with that pid; a failed start leaves the registry unchanged.",
  "every history of registry operations",
  "all histories",
  ["hydra/src/registry.rs: lookup_or_start_by_key, start_by_key, register_process, lookup_process"])
p("Registry entries disappear with their process, and only then",
  "When a registered process exits, its key (and no other) is unregistered, unless the key meanwhile belongs to another process; stop_process and remove unregister exactly the given key; remove leaves the process running.",
  "every history",
  "re-registration races",
  ["hydra/src/registry.rs: remove_process, stop_by_key, remove_by_key, handle_cast(RemoveLookup)"])
p("A registry without start routine answers StartNotSupported",
  "lookup_or_start/start_process on a registry constructed without with_start returns Err(StartNotSupported) and the registry keeps running.",
  "every key and registry state",
  "documented error never exercised",
  ["hydra/src/registry.rs: start_by_key, RegistryError::StartNotSupported"])
p("A failed duplicate start does not disturb the running registry",
  "Starting a second registry with a name in use fails with 'already_started' and leaves the running registry's entries intact.",
  "every registry state",
  "cross-instance effect of Drop",
  ["hydra/src/registry.rs: Drop for Registry", "hydra/src/gen_server.rs: start_gen_server"])
p("Registry count and list agree with lookup",
  "count equals the length of list, list contains (k,p) exactly once iff lookup(k)=p, and operations on one registry never affect another registry.",
  "every history over several registries",
  "all histories",
  ["hydra/src/registry.rs: count_processes, list_processes"])
# ---- Node / distribution
p("Frames sent while connecting are delivered first and in order",
  "Frames sent to a node while its connection is pending are handed to the connection, once and in order, before any frame sent after the connection is up; frames to a known but unconnected node or to an unknown id are dropped.",
  "every history of sends and connection events",
  "ordering between queue drain and new sends",
  ["hydra/src/node_registry.rs: node_send_frame, node_register_workers"])
p("Connection loss notifies every link and monitor exactly once",
  "When the connection to a node goes down, every local process linked to a process there receives one 'noconnection' exit signal, every process monitor one ProcessDown('noconnection'), every node monitor one NodeDown, remote monitors on local processes are removed, and the tables for that node are empty.",
  "every set of links/monitors and process table",
  "all tables",
  ["hydra/src/node_registry.rs: node_remote_supervisor_down", "hydra/src/node_remote.rs: Drop for NodeRemoteSupervisor"])
p("Forgetting or stopping notifies links and monitors too",
  "Node::forget ('Forcefully disconnects') and Node::stop likewise notify every link and monitor on the affected nodes.",
  "every node state",
  "not covered by tests",
  ["hydra/src/node_registry.rs: node_forget, node_local_stop, node_remote_supervisor_down"])
p("A node has at most one supervising connection",
  "For each node at most one process is its supervisor; accept succeeds iff there is no established one (a pending outgoing attempt is cancelled in its favour); connect does nothing when connected or pending; a stale supervisor's exit does not tear down its successor.",
  "every history of connect/accept/disconnect/exit",
  "connection races",
  ["hydra/src/node_registry.rs: node_accept, node_register, node_remote_supervisor_down, node_disconnect"])
p("Two nodes connecting to each other at the same time end up connected",
  "If two nodes dial each other concurrently, exactly one of the two connections survives.",
  "every interleaving of the two handshakes",
  "distributed race",
  ["hydra/src/node_registry.rs: node_accept", "hydra/src/node_remote.rs: node_remote_supervisor"])
p("Remote monitors report exactly once",
  "A monitor on a remote process yields exactly one ProcessDown: with the exit reason when the process exits, 'noproc' if it does not exist, or 'noconnection' when the connection is lost, and never two of them.",
  "every order of frames, exits and connection loss",
  "distributed schedules",
  ["hydra/src/node_remote.rs: node_remote_receiver", "hydra/src/node_registry.rs: node_process_monitor_down", "hydra/src/monitor.rs"])
p("Demonitoring a remote process withdraws the remote monitor",
  "After demonitor of a remote process (or exit of the monitoring process) the remote node is told to drop the monitor and the local bookkeeping is removed.",
  "every remote monitor",
  "wrong node id only shows across nodes",
  ["hydra/src/monitor.rs: monitor_destroy, monitor_destroy_all", "hydra/src/node_remote.rs: Frame::Monitor"])
p("Remote links propagate exits across nodes",
  "When a process linked to a remote process exits, the remote process receives exactly one exit signal with that reason from it; a link request to a missing remote process yields 'noproc'; unlink withdraws it.",
  "every link graph across two nodes and every exit",
  "distributed schedules",
  ["hydra/src/link.rs", "hydra/src/node_remote.rs: Frame::Link, Frame::LinkDown", "hydra/src/node_registry.rs: node_process_link_down"])
p("Remote sends and exits reach the same process as local ones",
  "A Send/Exit frame is delivered on the receiving node exactly as the corresponding local send/exit: once per existing target, ignored otherwise.",
  "every frame and process table",
  "all tables",
  ["hydra/src/node_kernel.rs: node_forward_send, node_process_send_exit", "hydra/src/node_remote.rs"])
p("Node state list",
  "Node::list and list_by_state report exactly the registered remote nodes and those in the given state; disconnect leaves the node known.",
  "every history",
  "all histories",
  ["hydra/src/node_registry.rs: node_list, node_list_filtered, node_disconnect"])
# ---- others
p("Shutdown protocols terminate the child and flush its signals",
  "shutdown(pid, how) returns only after the child's ProcessDown; BrutalKill sends Kill, Duration sends 'shutdown' and then Kill after the timeout, Infinity sends 'shutdown' only; afterwards no Exit message of that child is left in the mailbox and all other messages are kept in order.",
  "every mailbox and arrival order",
  "all mailboxes",
  ["hydra/src/shutdown.rs"])
p("Application::run waits for the supervised process",
  "run returns exactly when the process returned by start has exited (or start failed); a termination signal makes it request 'shutdown' and, if the timeout fires first, Kill; test fails iff the exit reason is custom and not 'shutdown'.",
  "every message sequence",
  "all sequences",
  ["hydra/src/application.rs"])
p("NodeOptions builders set their own field",
  "Each NodeOptions builder method changes exactly the option it is named after.",
  "every option value",
  "all values",
  ["hydra/src/node_options.rs"])
p("Comparisons between Dest, Pid, Reference and names are symmetric and terminate",
  "a == b and b == a agree and return for every Dest and Pid/Reference/&str.",
  "every pair",
  "recursion",
  ["hydra/src/dest.rs: PartialEq impls"])
p("Websocket command buffers",
  "The messages of a command buffer up to the first Close are sent in order, nothing after it, then the close frame; terminate is called at most once.",
  "every command buffer and socket outcome",
  "all buffers",
  ["hydra-websockets/src/websocket_handler.rs: websocket_process_commands", "hydra-websockets/src/websocket_command.rs"])
p("Websocket handler loop",
  "Every websocket message and process message is passed to the matching callback in order, a Ping is answered with a Pong carrying the same data before the callback, and the process exits with the callback's error, the socket's error class or 'connection_closed'.",
  "every event sequence and handler",
  "all handlers",
  ["hydra-websockets/src/websocket_handler.rs: start_websocket_handler"])
p("A panicking process exits with its panic message",
  "If a process panics with a string payload its exit reason is Custom(message); with any other payload Custom('Unknown error!'); if it returns, Normal; if it was sent an exit signal, the last reason set.",
  "every payload and history of exit signals",
  "all payloads",
  ["hydra/src/catch_unwind.rs", "hydra/src/process.rs: spawn_internal"])
p("Task::await_many returns results in order or the first error",
  "await_many returns the results of all tasks in argument order if all succeed and otherwise the error of the first failing task in argument order.",
  "every list of task outcomes",
  "all lists",
  ["hydra/src/task.rs: await_many"])
p("Semaphore permits are conserved",
  "At every moment granted permits plus available permits equal the initial count, under every interleaving of acquire, try_acquire and release; try_acquire fails exactly when none is available.",
  "every schedule",
  "all schedules",
  ["hydra/src/semaphore.rs"])
p("Destination conversions preserve the destinations",
  "Converting pids, names, slices or vectors into Dests yields exactly these destinations in order.",
  "every list",
  "all lists",
  ["hydra/src/dest.rs: From impls"])
with open('/verif/properties.jsonl','w') as f:
    for x in P: f.write(json.dumps(x)+"\n")
print(len(P))
