(** Specification vocabulary for Application (C62): what a message tells the application process. *)
From stdpp Require Import base list gmap numbers strings countable.
From Verif Require Import Types Mailbox Application.
(** [m] says that [p] has exited. *)
Definition exit_of (p : pid) (m : message) : bool :=
  match m with MSystem (SExit e _) => bool_decide (e = p) | _ => false end.
Definition is_user (m : message) : bool := match m with MUser _ => true | _ => false end.
(** The documented reaction: the exit of the signal handler [sp] (another process than [p]) asks [p] to
    shut down and starts the timer; the timer's message kills [p]; nothing else asks for anything. *)
Definition asks (p : pid) (sp : option pid) (m : message) : list request :=
  if is_user m then [QExit p RKill]
  else match sp with
       | Some e => if exit_of e m && negb (exit_of p m) then [QExit p (RCustom "shutdown"); QShutdownTimer] else []
       | None => []
       end.
(** Reasons with which an application may end in a test. *)
Definition clean (why : exit_reason) : Prop := why = RNormal \/ why = RCustom "shutdown".
