(** Model of the processes the crate itself runs: node_local.rs (the process of the local node), console.rs (the console
    server), hydra-websockets/src/websocket_server.rs.  No proofs in this file. *)
From stdpp Require Import base list gmap numbers strings countable.
From Verif Require Import Prog Types Mailbox World ProcApi NodeApi GenServer Loop.

(** ** node_local.rs *)
(** node_local.rs:63-82, the body of the loop; [listener]: the pid of :61.  A user message of the type NodeLocalSupervisorMessage is
    RequestLocalSupervisor(process), its only value (:19-23); [asker] reads the process off it.  What the loop does, in order:
    the processes that are sent the node's supervisor (:68-73). *)
Definition local_turn (listener : pid) (asker : value -> pid) (m : message) : list pid * lstatus Empty_set :=
  match m with
  | MUser v => ([asker v], LServing)
  | MSystem (SExit p why) => if decide (p = listener) then ([], LCrashed "Lost the local node listener") else ([], LServing)
  | MSystem _ => ([], LCrashed "internal error: entered unreachable code")
  end.
(** node_local.rs:38-50, the listener; the outcomes of the socket's operations are given: whether bind succeeds, and for each accept
    whether there is a connection.  None: the listener panics (:39-41); Some n: it has started [n] accepters (:48) and goes on. *)
Definition listener_run (bound : bool) (accepts : list bool) : option nat :=
  if bound then Some (length (filter (fun b => b = true) accepts)) else None.

(** ** console.rs *)
(** console.rs:21-33.  RuntimeInfo: the number of processes (runtime_info.rs:20); what comes from the operating system is not modelled. *)
Inductive cmsg :=
| QConnect | AConnected (p : pid)
| QNodes (st : node_state) | ANodes (l : list node)
| QProcesses | AProcesses (l : list pid)
| QInfo (ps : list pid) | AInfo (l : list (option info_t))
| QRuntime | ARuntime (n : nat).
(** console.rs:140 [pids.into_iter().map(Process::info).collect()]. *)
Fixpoint infos (ps : list pid) : prog world (list (option info_t)) :=
  match ps with
  | [] => Ret []
  | p :: ps => let! i := info p in let! l := infos ps in Ret (i :: l)
  end.
(** console.rs:128-147 handle_call, in process [me]. *)
Definition console_call (me : pid) (m : cmsg) : prog world (option cmsg) :=
  match m with
  | QConnect => Ret (Some (AConnected me))
  | QNodes st => let! l := node_list_by st in Ret (Some (ANodes l))
  | QProcesses => let! l := list_processes in Ret (Some (AProcesses l))
  | QInfo ps => let! l := infos ps in Ret (Some (AInfo l))
  | QRuntime => let! n := observe (fun w => size (w_regs w)) in Ret (Some (ARuntime n))
  | _ => Panic "internal error: entered unreachable code"
  end.
(** The server (console.rs:110-148): init succeeds; handle_cast is the trait's (gen_server.rs: unimplemented!()), handle_info too (Ok).
    [obs n]: the state of the node when the [n]th call is handled.  Simplification: the call is handled without interruption
    here; [console_call] itself is interleaved with other calls in the theorems about it. *)
Definition console_server (me : pid) (obs : nat -> world) : callbacks cmsg nat :=
  Callbacks (fun n _ => (n, RPanic "not implemented"))
    (fun n m _ => (S n, match run (console_call me m) (obs n) with Done _ r => ROk r | Panicked _ s => RPanic s | Blocked _ => RPanic "" end))
    (fun n _ => (n, ROk tt))
    (fun n _ => (n, None)).
(** The five functions of console.rs:54-107: the request, and what is made of the reply ([None]: unreachable!()). *)
Definition take_pid (m : cmsg) : option pid := match m with AConnected p => Some p | _ => None end.
Definition take_nodes (m : cmsg) : option (list node) := match m with ANodes l => Some l | _ => None end.
Definition take_processes (m : cmsg) : option (list pid) := match m with AProcesses l => Some l | _ => None end.
Definition take_info (m : cmsg) : option (list (option info_t)) := match m with AInfo l => Some l | _ => None end.
Definition take_runtime (m : cmsg) : option nat := match m with ARuntime n => Some n | _ => None end.

(** ** websocket_server.rs *)
(** std::io::ErrorKind, as far as :87-92 distinguishes it. *)
Inductive bind_error := AddrInUse | AddrNotAvailable | WouldBlock | OtherKind (n : N).
Definition bind_reason (e : bind_error) : string :=
  match e with AddrInUse => "address_in_use" | AddrNotAvailable => "address_not_available" | WouldBlock => "would_block" | OtherKind _ => "unknown" end.
(** websocket_server.rs:81-104 init, in process [me]; [bound] is the outcome of bind.  Returns the field [server]. *)
Definition ws_init (me : N) (bound : option bind_error) : prog world (exit_reason + pid) :=
  do! set_flags me true in
  match bound with
  | Some e => Ret (inl (RCustom (bind_reason e)))
  | None => let! x := spawn me true false in Ret (inr (fst x))
  end.
(** websocket_server.rs:106-110 terminate. *)
Definition ws_terminate (me : N) (server : option pid) : prog world unit :=
  match server with Some p => exit me p RKill | None => Ret tt end.
(** The handshake of one connection (:113-174, 176-211).  [asked]: what T::accept returned if the callback was called;
    [took]: how long the handshake takes ([None]: for ever), [good]: tungstenite's result if it is waited for. *)
Inductive accepted := Handler | Refused | TooLate | HandlerPanic (s : string).
(** timeout.rs / pingora_timeout: the inner future is polled before the clock. *)
Definition in_time (limit : option N) (took : option N) : bool :=
  match limit, took with Some d, Some t => (t <=? d)%N | None, Some _ => true | _, None => false end.
(** :113-174 server_accept; the second component is the time spent ([None]: for ever). *)
Definition server_accept (limit : option N) (asked : option bool) (took : option N) (good : bool) : accepted * option N :=
  if in_time limit took then
    (if good then match asked with Some true => Handler | _ => HandlerPanic "Must have a handler after accepting!" end else Refused, took)
  else (TooLate, limit).
(** :176-211 server_accept_tls; [tls]: the outcome of the TLS handshake, with its duration; [work]: the time between the end of
    the TLS handshake and the reading of the clock in :195 is part of [tls_took]. *)
Definition server_accept_tls (limit : option N) (tls_took : option N) (tls_good : bool) (asked : option bool) (took : option N) (good : bool) : accepted * option N :=
  if in_time limit tls_took then
    if tls_good then
      let spent := default 0%N tls_took in
      let '(r, t) := server_accept (match limit with Some d => Some (d - N.min spent d)%N | None => None end) asked took good in
      (r, match t with Some t => Some (spent + t)%N | None => None end)
    else (Refused, tls_took)
  else (TooLate, limit).
(** websocket_server.rs:81, 226-239 (feature native-tls): the acceptor process reads its certificate only when it runs, after init has
    returned.  [pkcs12], [pkcs8]: whether the certificate was given, and if so whether it parses; [loads]: NTlsAcceptor::new.
    The panic, if any. *)
Definition acceptor_tls (pkcs12 pkcs8 : option bool) (loads : bool) : option string :=
  match pkcs12, pkcs8 with
  | Some true, _ | None, Some true => if loads then None else Some "Failed to load identity!"%string
  | Some false, _ => Some "Failed to parse pkcs12 certificate!"%string
  | None, Some false => Some "Failed to parse pkcs8 certificate!"%string
  | None, None => Some "Feature 'native-tls' enabled without providing a tls certificate!"%string
  end.
(** websocket_server.rs:75-111: the message callbacks are the trait's (gen_server.rs:322-337): casts and calls panic, other messages are ignored;
    terminate is [ws_terminate]. *)
Definition ws_server : callbacks unit unit :=
  Callbacks (fun s _ => (s, RPanic "not implemented")) (fun s _ _ => (s, RPanic "not implemented")) (fun s _ => (s, ROk tt)) (fun s _ => (s, None)).
