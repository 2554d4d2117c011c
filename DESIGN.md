# A Rocq model of dtzxporter/hydra

This file is written before the proofs and is kept current while the model grows.

## 1. Trusted base

* Coq 8.16.1's kernel (and `coqchk`).
* Axioms: none.  `Print Assumptions` is run in the source right after every property theorem and answers "Closed under the
  global context" for each of them (section 6).  No axiom, parameter, functor or module type is added; no standard-library
  axiom (functional extensionality, classical logic, …) is used either.
* The reading of the Rust code.  `/repo` is not built or run; every model definition cites the file and lines it models.
* std++ (`gmap`, `gset`, lists, strings).
* External crates are modelled by their documented contract: `DashMap` operations are atomic per call and a map;
  `std::sync::Mutex` critical sections are mutually exclusive; `ArcSwap` load/store are atomic;
  `flume` unbounded channels are FIFO queues whose send fails when the receiver is gone; `tokio::select!`/`timeout` may
  choose any ready branch (modelled as an oracle/event); `bincode` (config `standard` + fixed ints, little endian) is modelled
  byte by byte; user callbacks, the ring's hash function and the serialisation of user messages are universally quantified
  (Section variables, with the assumptions visible as premises of the closed theorem statements); SHA-256 and HMAC are written
  out from their published definitions (`Sha.v`) and checked there on published test vectors; tokio's semaphore is modelled
  from its documentation (FIFO queue, permits set aside for the first waiter).

## 2. Shape of the model

`theories/` holds triples: `X.v` (model: total executable Gallina, no proofs), `XSpec.v` (small independent
specification where one is needed), `XProofs.v` (lemmas) and `XProps.v` (only the property theorems, each closed with
`exact …`, `Print Assumptions`, and non-vacuity `Example`s).

Concurrency: an API call is a *program*, a tree of atomic steps on a shared world (`Prog.v`), one step per DashMap/atomic
operation or per lock-protected section of the Rust code.  `run` executes a call without interleaving (used for the
properties that quantify over non-overlapping histories); `exec` runs an arbitrary list of scheduler events over any number of
concurrently active calls (used for "every schedule").

A property that the code violates gets a theorem `…_refuted` (a concrete reachable witness, checked by computation) and the
strongest true part as `…_partial`; its manifest status is `partial`.

## 3. Where each property is modelled and proved

| id | files | method |
|----|-------|-------|
| C01–C05 | `HashRing*` | refinement of the sorted list + override map to two finite maps; binary search as in std; C05 refuted by a witness |
| C06 | `HashRingConc` | invariant over all schedules of lock/load/store programs; `set_overrides` clause refuted |
| C07–C10, C74 | `Codec*`, `CodecValid`, `CodecStream` | bincode byte by byte; round trip per type; streaming by induction on chunks; C10 refuted by witnesses, partial for units whose body ends at the unit's end |
| C11, C13 | `Wire*` | pid/ref/node (de)serialisation against the node tables of both nodes; uses the node-table invariants of C12 |
| C12, C16, C22, C24 | `SchedSpec … SchedProps` | invariants and token (potential) arguments over every schedule of every API call (`reach (any_call S)`) |
| C14, C15 | `Sha`, `Hello*`, `AddrProofs` | concrete HMAC-SHA-256; unambiguity of the signed text, binding reduced to an explicit collision; C14 refuted for the missing separator |
| C17, C25, C30, C32 | `RegProofs … LifeProps` | invariants over histories; persistence in every schedule; races refuted by schedules |
| C18–C23 | `ProcSpec … ProcProps`, `MonProofs`, `MonLife`, `LinkProofs` | exact effect of calls; life of a monitor/link across arbitrary calls of others |
| C26–C28 | `Mailbox*` | list reasoning on (skipped items, channel), abandonment at any point |
| C29 | `Send*` | exact effect equation of a send |
| C31 | `Timer*` | labelled steps; invariants and potential arguments in every schedule |
| C33, C34 | `GenServer*`, `GenStartProps` | server loop as a state machine over callback oracles and arrivals; start as a schedule of two tasks |
| C103, C104 | `MsgPackRead` | the reader of MsgPack.v, for bytes that nobody's serialiser wrote: induction over the type; records and variants by a specification with positions and names only |
| C105 | `MsgPackForward` | whatever is read is typed (C103), of a size that can be written, and a fixed point of what the first way may change; then C100 applies. Induction over the type, then over the number of hops |
| C106 | `MsgPackFormat` | the format as an inductive relation between meanings and bytes, with its own arithmetic; the reader is proved equivalent to it (both directions), the writer a shortest word of it |
| C107 | `MsgPackSerde` | the serialisation of MsgPack.v as an instance of the model's `serde` (values numbered by way of a tree, with an inverse); a relation `apart` between types, sound by induction over it; then C85 and C86 with their conditions on the serialisation discharged |
| C108, C24 (for good) | `KeepSpec`, `KeepProofs`, `KeepProps`, `AliasGone`, `AliasOnce` | a predicate on programs ("leaves the alias alone up to the step that makes its reference") for every call, then an invariant over the phases of the one call of alias; it needs no fact about the schedule before the call. For `AliasOnce` the token count of `AliasProofs` (one-shot alias in the table + messages delivered through it + calls of unalias that said yes never grows). Two witnesses for the refutations |
| C35 (remote) | `ClientAlias`, `ClientAliasProps` | invariant along the client's run: only the step that makes a reference can make an alias of it (`nc`), the own monitor entry keeps the shape that makes demonitor destroy the alias, and a destroyed alias stays away in every schedule; then C24 |
| C35, C36, C61 | `Client*`, `Late*` | scripts of the client's atomic steps interleaved with arbitrary calls of everybody else; no late exit signal after a shutdown: C79 and C80 for the moment of the notice, and an invariant that everything in a mailbox is old and clean or has arrived since |
| C37–C45 | `Super*` | full supervisor state machine; start/shutdown outcomes by oracle; invariants of histories |
| C46–C50, C71, C72 | `Registry*` | table of registries + registry state machine; invariants of histories |
| C51–C54, C60 | `Net*`, `RMonProofs`, `Persist`, `Conn*`, `AllocProofs` | whole-effect equations + persistence from step footprints (`Labels`) |
| C55 | `RaceProps` | two nodes, all orders of the four events |
| C56–C59 | `RemoteProps`, `NetFrames`, `NetExit`, `NetLife` | effects of frames on the receiver, composition of two worlds |
| C56 | `RWatchProofs`, `OwnerProofs`, `RWatchProps` | the monitored side in every schedule: the obligation to report is carried by the call that removes the process (method of `Debt`); node ids belong to one node for good (method of `Once`) |
| C58 | `LinkOwner`, `RLinkProofs`, `RLinkProps` | links with processes of another node in every schedule, as C56: whoever removes the process owes the LinkDown message until it is queued |
| C62 | `Loop`, `App*` | loop over arbitrary arrivals |
| C63, C73 | `Options*` | field-wise equations |
| C64, C67, C68, C70 | `Misc*` | direct; recursion through a fuel-free "returns" relation |
| C65, C66 | `Websocket*` | handler loop over socket/mailbox oracles |
| C69 | `Semaphore*` | invariant over operation lists |
| C75–C78 | `Path`, `Truth*`, `Origin*` | statements about earlier moments of a run (`run_of`: the list of states passed through); invariants indexed by the moment, programs verified with a Kripke-style predicate `kp`; every mailbox item derives from a delivered one |
| C79 | `Own`, `Order*` | the ending process is the only owner of its end: at most one thread sends its exit signals and notices, links first; an ownership predicate `own` over programs (state handed through the thread, everybody else keeps the invariant) gives the order of arrivals in the log |
| C80 | `Once`, `Notice*` | what a reference was handed out for is settled once: a ghost value that is given at the moment the reference is drawn and never changes; threads that put a notice in a mailbox or an entry in a table know it; induction over the runs of a client script |
| C81-C84 | `Heart*` | both ends of a connection as a timed transition system: senders' mailboxes, byte pipes cut anywhere, readers' buffers (the codec of C07-C10), the supervisors' pongs, failures and kills at any moment; invariants over timed runs; delays are bounds on how far time may go on before somebody acts |
| C85, C86 | `Fifo*` | one task's calls in turn (`in_turn`), each interleaved atom by atom with arbitrary calls of others; the log of arrivals grows by exactly the message when the send's delivering step is taken; C86 composes the sender's out-stream on A, the timed connection of C81 and the frames handled on B |
| C87–C90 | `Debt`, `Tie*` | `Debt`: a step that creates an obligation makes its thread the debtor, and a debtor cannot return; the step that removes a process owes the linked process its signal, so when all calls have returned it has been told. C88/C89 follow by chaining over the links that the connection set-up makes; C90 by persistence of the node's own entry |
| C91 | `Watch*` | the same method (`Debt`): the step that removes the target owes the monitoring process its notice until the loop over the target's monitors has sent it; together with the at-most-once token count of C22 this gives exactly one |
| C92 | `LocalSend*` | `send` with a serialiser that panics for some values, step for step the code of `process_send`; compared with `send` by equality of programs, a panic with nothing sent by a guarantee on every step |
| C93 | `Kernel*` | the loop of node_local.rs as a `Loop` machine (arrivals and turns in any order); the mailbox order and progress lemmas of C62 |
| C94 | `Kernel*` | `handle_call` as a program over the tables; what it answers is compared with the states of the run it was handled in; the server is an instance of the GenServer loop of C33 |
| C95 | `Kernel*` | `init` and `terminate` as programs (spawn and exit as in C18, C30); the handshake as a function of the outcomes and durations the network and tungstenite produce |
| C96 | `Macros*` | the start of the generated Application as a program; the exit signal of the body by C87 (every schedule), the reaction of the application process by the loop of C62 |
| C97 | `Locks*` | the lock-protected sections opened up: which shard of which table each call takes, in which mode, what it holds meanwhile, every outcome of every lookup possible; an order on the locks (rank of the table, then index of the shard) that every call respects; the thread that waits for the highest lock, or a writer that waits for it too, can always go on; termination because calls are well-founded trees |
| C98 | `Locks*` | map_node, add_nodes, set_nodes with any deed of the crate inside; same order, with the ring's locks lowest |
| C99 | `NodeText*` | conversion and comparison as functions on strings; std's parser of IPv4 and IPv6 socket addresses spelled out, proved to accept exactly the texts of a small grammar (RFC 4291) and to invert the printed address of C14 |
| C100, C101, C11, C13 | `MsgPack*` | MessagePack as rmp_serde writes and reads it, over a universe of types (serde's shapes): `serialize`, `deserialize` at a type; round trip by induction over types and values, kinds of words and names of variants tell types apart; the bytes of pids, references, nodes and of the GenServer protocol as instances |
| C102 | `ReasonText*` | the conversions and comparisons as functions on reasons and texts |

## 4. Findings (properties the code violates; each has a `…_refuted` theorem with a concrete reachable witness)

| id | what the code does |
|----|----|
| C05 | `HashRing::clear` keeps the overrides |
| C06 | `set_overrides` clears and then extends: a pinned key is visible unpinned in between |
| C10 | a body that ends before the unit's end leaves bytes that are read as the next length; a body that runs past it reads the next unit |
| C11, C13, C14 | the scope id of an IPv6 address is lost on the wire (the binary serde form is (ip, port)), so such a node is another node on the other side |
| C14 | challenge = HMAC(name ++ address) without separator: ("a1", 0.0.0.0) and ("a", 10.0.0.0) sign the same text; cookie `None` = cookie "\0" = … (HMAC key padding) |
| C17 | `drop_process` removes the name without checking the owner: a name registered again in the meantime disappears |
| C20 | `unlink` removes only the caller's direction |
| C22 | the existence check drops its guard before the monitor is stored: the notice is lost |
| C23 | `demonitor` cannot take back a notice a receive has already moved to the skipped items |
| C25 | alias of a monitor on a remote name, one-sided links, monitors on remote processes outlive their owner |
| C26, C27 | a skipped serialised message is decoded as the first type that fits |
| C30, C34 | `tokio::spawn` comes before `process_insert`: the new task may run unregistered (flags, names, exit signals lost; start reports `already_started`) |
| C31 | a timer past its sleep cannot be cancelled; one that ends before its table entry is made leaves the entry for ever |
| C35 | a reply of a local server after the caller's timeout arrives in the caller's mailbox (no alias for local calls) |
| C39 | a delayed attempt for a child terminated meanwhile counts as a restart; a window larger than the clock panics |
| C40 | the AllSignificant test is inverted |
| C41 | RestForOne/OneForAll restart temporary children; `terminate_child` keeps a temporary specification |
| C42 | an ignored start of a temporary child leaves its id in the table: the next `start_child` panics; a specification without start function panics |
| C44, C45 | `terminate_child` of a restarting child leaves the attempt in place; the pid of a child whose restart failed stays on record |
| C47–C49, C72 | see the manifest notes (registry) |
| C51, C53, C55, C57 | reconnect after disconnect uses the old sender; forget/stop notify nobody; crossing dials can both die; demonitor of a remote process addresses node 0 |
| C56 | `process_exists_lock` does not hold the process (its guard is dropped before the callback, against its comment): a monitor request that overlaps the end of the process is recorded afterwards and never answered |
| C58 | the same for links: a link request of another node that overlaps the end of the process is recorded afterwards, and the exit is never reported |
| C61 | a shutdown that begins while the child is on its way out sees `noproc`, flushes, and gets the child's exit signal afterwards |
| C84 | the `heartbeat_timeout` builder sets the handshake timeout: a connection with a longer heartbeat interval than 45 s dies whenever it is idle, whatever timeout was asked for |
| C87 | a link call that overlaps with the whole end of its target: no signal, and a stale entry |
| C89 | an accepted connection links its process to itself (node_remote.rs:294, shadowed variable) instead of to the local node: it survives `Node::stop` and goes on delivering messages |
| C90 | `Drop for NodeLocalSupervisor` clears all node tables: when the node was stopped and started again, the late drop of the first object takes the second node down |
| C92 | `Process::send` to a list gives the object only to the first local destination and a serialised copy to the others (process_kernel.rs:53-55): a `Local<T>` sent to two local processes panics |
| C93 | any message of another type sent to the local node's process - also from another node, whose bytes are only looked at when received - panics it, and with it the node (node_local.rs:63); Node::start reports success even if the listener cannot bind (node_local.rs:39) |
| C94 | processes_info with a pid of another node (the links of a local process may lead there) panics the console server (console.rs:140); so do casts and answers sent as calls |
| C95 | WebsocketServer traps exits and defines no handle_info, so it goes on without its acceptor; with native-tls a missing or wrong certificate panics the acceptor after start_link has returned Ok (websocket_server.rs:226-239); terminating the server leaves open connections open (they are spawned without a link, :173, 256) |
| C96 | spawn starts the task before it registers the process (process.rs:485, 492): with #[hydra::main] a body that ends at once is never reported, and run waits for ever; likewise the application process may set its trap flag before it is registered, which has no effect |
| C98 | map_node runs the caller's closure while it holds the read guard of the override (hash_ring.rs:154-156): add_override in the closure on a key of the same shard never returns; add_nodes and set_nodes advance the caller's iterator while they hold ring_lock (:101, :121): add_node in the iterator never returns |
| C99 | a node whose name contains '@' is not equal to its own text and cannot be converted back (split_once at the first '@', node.rs:206, 246) |
| C100 | MessagePack as rmp_serde writes it has one word, nil, for (), None, Some(()) and Some(None), so Some of nothing arrives as None at another node (and as Some at a local process) |
| C101 | the bytes carry no type and serde reads what fits: a u8 is received as a u64, a struct as one with fewer fields, a cast to one server as a cast to another whose message has the same shape |
| C108 | `Process::unalias` by any process destroys the alias of that id, its owner's or not, and returns true (alias.rs:27: the table is looked up by the bare id, also for a reference of another node); so does a MonitorDown frame with that id, before the handler looks whether there is such a monitor (node_registry.rs:515) |
| C62–C66, C73 | see the manifest notes |

## 5. What is modelled and what is not

Modelled, with a citation at every definition: hash_ring, frame/*, process_receiver, process_item, process, process_kernel,
process_registry, link, monitor, alias, node, node_registry, node_kernel, node_remote (frames, hello exchange, supervisor
registration and loss), pid, reference, dest, exit_reason, gen_server, supervisor, child_spec, restart, shutdown, registry,
application, task, semaphore, catch_unwind, the option structs, local, node_local, console, hydra-macros, websocket_handler,
websocket_command, websocket_server, serialize; the sender and receiver tasks of node_remote at byte level, with their clocks.

Simplifications (also stated at the definitions):

* ids are unbounded; 2^64 allocations are out of scope;
* iteration over a DashMap is in key order, in one step, where the order is not observable or documented as unspecified;
* callbacks are values of oracles; a callback that itself calls the process API is a sequence of those calls;
* `Process::timeout` polls the inner future before the clock (pingora_timeout), as the crate does;
* the allocation that bincode makes for an announced `Vec` length is not modelled (memory exhaustion by a hostile peer);
* MessagePack: in the model of the node the bytes of a user message are an arbitrary function of the value whose decodability is a
  premise (C107 discharges it for the real format and any list of message types); MsgPack.v models the bytes themselves, for serde's shapes, from the MessagePack specification and rmp_serde's
  documentation (its source is not in /repo).  Not covered there: char, 128 bit integers, byte strings, extension types, serde
  attributes other than rename, hand-written Serialize; the reader's nesting limit (1024) is a parameter;
* guards kept across several table operations in `node_remote_supervisor_down` are modelled as separate steps (more schedules
  than the code has: sound for the properties proved, never used in a refutation).
* C97 and C98 take from dashmap, std and tokio, by reading their documentation and not their code: a shard is one reader-writer
  lock; which operations take which side; `iter` takes the next shard before it gives back the last; `clear` and `len` take one
  shard at a time; `spawn` and `abort` take no lock of the crate (the task's drop runs later, on a worker). Destructors and
  `Hash` of user types do not call the crate.

Not modelled: tokio's scheduler and clock (only their contract), sockets and TLS, tracing, memory safety, performance.

## 6. Print Assumptions

Every theorem named in `MANIFEST.json`: "Closed under the global context".  (`coqchk` on the whole development lists seven
fields of the module `Coq.ssr.ssrunder.Under_rel` of Coq's own library, which std++ loads; no theorem depends on them.)

## 7. Tests of the theorems against wrong programs

`seeded/LOG.jsonl` lists the edits made to the model in scratch copies and the theorems that stopped compiling.
