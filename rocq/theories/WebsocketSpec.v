(** Specification vocabulary for the websocket process (C65, C66). *)
From stdpp Require Import base list gmap numbers strings countable.
From Verif Require Import Types Websocket.

(** What has gone out to the client, in order. *)
Inductive outgoing := OMessage (m : wsmsg) | OClose (code : N) (reason : string).
Definition out (e : wevent) : option outgoing :=
  match e with VSent m => Some (OMessage m) | VClose c r => Some (OClose c r) | _ => None end.
Definition is_terminate (e : wevent) : option exit_reason := match e with VTerminate r => Some r | _ => None end.
Definition is_exit (e : wevent) : option exit_reason := match e with VExit r => Some r | _ => None end.
(** What a buffer is meant to send: its messages up to the first Close, then the close frame. *)
Fixpoint meant (b : buffer) : list outgoing :=
  match b with
  | [] => []
  | Send m :: b => OMessage m :: meant b
  | Close c r :: _ => [OClose c r]
  end.
Definition has_close (b : buffer) : bool := existsb (fun c => match c with Close _ _ => true | Send _ => false end) b.
Definition no_errors (o : outcomes) : Prop := o_pong o = None /\ o_send o = SentAll /\ o_close o = None.

(** The callback an input calls for. *)
Inductive callback := KHandle (m : wsmsg) | KInfo (m : message).
Definition calls_for (i : input) : option callback :=
  match i with IMessage m => Some (KInfo m) | ISocket m => Some (KHandle m) | _ => None end.
Definition called (e : wevent) : option callback :=
  match e with VHandle m _ => Some (KHandle m) | VInfo m _ => Some (KInfo m) | _ => None end.
Definition returned (e : wevent) : option wres :=
  match e with VInit r | VHandle _ r | VInfo _ r => Some r | _ => None end.
(** Reasons a socket error is reported with. *)
Definition socket_reason (why : exit_reason) : Prop :=
  why ∈ map RCustom ["connection_closed"; "io_error"; "tls_error"; "utf8_error"; "attack_attempt"; "unknown"]%string.

(** The errors of a socket fall into six kinds, the two closed ones being the same. *)
Definition same_kind (e e' : wserror) : Prop :=
  match e, e' with
  | (EAlreadyClosed | EConnectionClosed), (EAlreadyClosed | EConnectionClosed) => True
  | EIo, EIo | ETls, ETls | EUtf8, EUtf8 | EAttack, EAttack | EOther _, EOther _ => True
  | _, _ => False
  end.
