(** Model of hydra-websockets/src/websocket_handler.rs and websocket_command.rs: the process behind a
    websocket.  No proofs in this file.

    The handler's callbacks are arbitrary functions of its state; the outcomes of the socket's
    operations are inputs.  A trace lists what happens, in order.  Process::exit on the own process
    only requests the abort of the task: tokio drops the task at the next point where it has to wait,
    so the code after it still runs as long as every await is ready; a trace is therefore what the task
    does if it is not dropped, and every prefix of it from the first exit request on is what may
    actually happen.  Not modelled: panics of callbacks, the bytes on the socket (tungstenite), TLS,
    websocket_server.rs. *)
From stdpp Require Import base list gmap numbers strings countable.
From Verif Require Import Types GenServer.

(** tungstenite's Message; contents are numbers (equality is all that matters). *)
Inductive wsmsg := WText (d : N) | WBinary (d : N) | WPing (d : N) | WPong (d : N) | WClose (d : option N).
(** tungstenite's Error, as far as websocket_handler.rs:223-232 distinguishes it. *)
Inductive wserror := EAlreadyClosed | EConnectionClosed | EIo | ETls | EUtf8 | EAttack | EOther (d : N).
(** websocket_handler.rs:223-232 error_to_reason. *)
Definition error_to_reason (e : wserror) : exit_reason :=
  match e with
  | EAlreadyClosed | EConnectionClosed => RCustom "connection_closed"
  | EIo => RCustom "io_error"
  | ETls => RCustom "tls_error"
  | EUtf8 => RCustom "utf8_error"
  | EAttack => RCustom "attack_attempt"
  | EOther _ => RCustom "unknown"
  end.
(** websocket_command.rs:7-10. *)
Inductive command := Send (m : wsmsg) | Close (code : N) (reason : string).
(** websocket_command.rs:18-58: a buffer is built by pushing; with_send and with_close start one. *)
Definition buffer := list command.
Definition cmds_new : buffer := [].
Definition cmds_send (m : wsmsg) (b : buffer) : buffer := b ++ [Send m].
Definition cmds_close (code : N) (reason : string) (b : buffer) : buffer := b ++ [Close code reason].

(** websocket_handler.rs:26-82; terminate returns nothing. *)
Definition wres := (option buffer + exit_reason)%type.
Record whandler (St : Type) := WHandler {
  w_init : St -> St * wres;
  w_handle : St -> wsmsg -> St * wres;
  w_info : St -> message -> St * wres;
  w_terminate : St -> exit_reason -> St }.
Global Arguments WHandler {St}.
Global Arguments w_init {St}.
Global Arguments w_handle {St}.
Global Arguments w_info {St}.
Global Arguments w_terminate {St}.

Inductive wevent :=
| VInit (r : wres) | VHandle (m : wsmsg) (r : wres) | VInfo (m : message) (r : wres)
| VSent (m : wsmsg)  (* accepted by the sink *)
| VClose (code : N) (reason : string)  (* the close frame has been sent *)
| VTerminate (why : exit_reason)
| VExit (why : exit_reason).  (* Process::exit(Process::current(), why) *)

(** The outcome of send_all: every message is accepted and flushed; or message number [k] (counting
    from 0) is refused; or, [k] being their number, all are accepted and the flush fails. *)
Inductive send_outcome := SentAll | FailsAt (k : nat) (e : wserror).
(** Outcomes of the socket operations of one round: the Pong, send_all, close. *)
Record outcomes := Outcomes { o_pong : option wserror; o_send : send_outcome; o_close : option wserror }.

(** websocket_handler.rs:97-110: the filter_map: the messages before the first Close, and that Close. *)
Fixpoint split_commands (b : buffer) : list wsmsg * option (N * string) :=
  match b with
  | [] => ([], None)
  | Send m :: b => let '(ms, c) := split_commands b in (m :: ms, c)
  | Close code reason :: _ => ([], Some (code, reason))
  end.

Section handler.
  Context {St : Type} (h : whandler St).
  (** websocket_handler.rs:85-135 websocket_process_commands.  There is no return after the failed
      send_all (line 114-118).  The close command is known only if send_all has drawn the whole
      iterator, which it has unless a message was refused. *)
  Definition process_commands (b : buffer) (o : outcomes) (st : St) : list wevent * St :=
    let '(ms, close) := split_commands b in
    let '(es, st, drawn) :=
      match o_send o with
      | SentAll => (map VSent ms, st, true)
      | FailsAt k e =>
          (map VSent (take k ms) ++ [VTerminate (error_to_reason e); VExit (error_to_reason e)],
           w_terminate h st (error_to_reason e), bool_decide (length ms <= k))
      end in
    match close with
    | Some (code, reason) =>
        if drawn : bool then
          match o_close o with
          | None => (es ++ [VClose code reason; VExit RNormal], st)
          | Some e => (es ++ [VTerminate (error_to_reason e); VExit (error_to_reason e)], w_terminate h st (error_to_reason e))
          end
        else (es, st)
    | None => (es, st)
    end.
  Definition process_option (b : option buffer) (o : outcomes) (st : St) : list wevent * St :=
    match b with Some b => process_commands b o st | None => ([], st) end.

  (** The task goes on, has returned, or has panicked. *)
  Inductive wstatus := WGoing (st : St) | WReturned | WPanicked (s : string).
  (** The two lines before a return: terminate, then exit. *)
  Definition leave (why : exit_reason) : list wevent * wstatus := ([VTerminate why; VExit why], WReturned).

  (** websocket_handler.rs:143-154: before the loop.  Err exits without terminate. *)
  Definition ws_start (o : outcomes) (st : St) : list wevent * wstatus :=
    let '(st, r) := w_init h st in
    match r with
    | inl b => let '(es, st) := process_option b o st in (VInit r :: es, WGoing st)
    | inr why => ([VInit r; VExit why], WReturned)
    end.

  (** What one round of the loop gets: a message of the process, or what stream.next() yields. *)
  Inductive input := IMessage (m : message) | ISocket (m : wsmsg) | IError (e : wserror) | IEnd.
  (** websocket_handler.rs:156-219: one round. *)
  Definition ws_turn (i : input) (o : outcomes) (st : St) : list wevent * wstatus :=
    match i with
    | IMessage m =>
        let '(st, r) := w_info h st m in
        match r with
        | inl b => let '(es, st) := process_option b o st in (VInfo m r :: es, WGoing st)
        | inr why => let '(es, s) := leave why in (VInfo m r :: es, s)
        end
    | IEnd => ([], WPanicked "Websocket closed without close frame!")
    | IError e => leave (error_to_reason e)
    | ISocket m =>
        let go (pre : list wevent) :=
          let '(st, r) := w_handle h st m in
          match r with
          | inl b =>
              let '(es, st) := process_option b o st in
              match m with
              | WClose _ => let '(es', s) := leave (RCustom "connection_closed") in (pre ++ VHandle m r :: es ++ es', s)
              | _ => (pre ++ VHandle m r :: es, WGoing st)
              end
          | inr why => let '(es, s) := leave why in (pre ++ VHandle m r :: es, s)
          end in
        match m with
        | WPing d => match o_pong o with
                     | Some e => leave (error_to_reason e)
                     | None => go [VSent (WPong d)]
                     end
        | _ => go []
        end
    end.

  (** A run: the rounds' inputs and socket outcomes, what happened, and how it stands. *)
  Inductive ws_runs (st0 : St) (o0 : outcomes) : list (input * outcomes) -> list wevent -> wstatus -> Prop :=
  | ws_runs_start : ws_runs st0 o0 [] (fst (ws_start o0 st0)) (snd (ws_start o0 st0))
  | ws_runs_turn is es st i o : ws_runs st0 o0 is es (WGoing st) ->
      ws_runs st0 o0 (is ++ [(i, o)]) (es ++ fst (ws_turn i o st)) (snd (ws_turn i o st)).
End handler.
Global Arguments WGoing {St}.
Global Arguments WReturned {St}.
Global Arguments WPanicked {St}.
