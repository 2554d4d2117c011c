(** Specification vocabulary for servers (C33, C34): which callback a message calls for, and what ends
    a server. *)
From stdpp Require Import base list gmap numbers strings countable.
From Verif Require Import Prog Types Mailbox MailboxSpec World ProcApi GenServer.

(** The three message callbacks, with their arguments. *)
Inductive callback (M : Type) := KCast (m : M) | KCall (m : M) (f : from) | KInfo (m : M + sysmsg).
Global Arguments KCast {M} m.
Global Arguments KCall {M} m f.
Global Arguments KInfo {M} m.

(** The documented dispatch: casts to handle_cast, calls to handle_call, everything else to
    handle_info - but a stop request and the parent's exit signal go to no callback. *)
Definition callback_for {M} (parent : pid) (m : gmsg M + sysmsg) : option (callback M) :=
  match m with
  | inl (GCast m) => Some (KCast m)
  | inl (GCall f m) => Some (KCall m f)
  | inl (GReply _ m) => Some (KInfo (inl m))
  | inl (GStop _) => None
  | inr (SExit p why) => if decide (p = parent) then None else Some (KInfo (inr (SExit p why)))
  | inr s => Some (KInfo (inr s))
  end.
(** ... but end the server, with this reason. *)
Definition stop_reason {M} (parent : pid) (m : gmsg M + sysmsg) : option exit_reason :=
  match m with
  | inl (GStop r) => Some r
  | inr (SExit p r) => if decide (p = parent) then Some r else None
  | _ => None
  end.

(** Reading a trace. *)
Definition called {M} (e : event M) : option (callback M) :=
  match e with ECast m _ => Some (KCast m) | ECall m f _ => Some (KCall m f) | EInfo m _ => Some (KInfo m) | _ => None end.
Definition error_of {A} (r : result A) : option exit_reason := match r with RErr r => Some r | _ => None end.
Definition failed {M} (e : event M) : option exit_reason :=
  match e with ECast _ r => error_of r | ECall _ _ r => error_of r | EInfo _ r => error_of r | _ => None end.
Definition terminates {M} (e : event M) : option exit_reason := match e with ETerminate r => Some r | _ => None end.
(** The replies handle_call asked for, and those sent. *)
Definition asked {M} (e : event M) : option (from * M) :=
  match e with ECall _ f (ROk (Some m)) => Some (f, m) | _ => None end.
Definition replied {M} (e : event M) : option (from * M) := match e with EReply f m => Some (f, m) | _ => None end.

(** Callbacks that leave the own mailbox alone (whatever arrives later). *)
Definition keeps_mailbox (l l' : plocal) : Prop :=
  forall xs, mailbox (set_chan (l_chan l ++ xs) l) = mailbox (set_chan (l_chan l' ++ xs) l').
