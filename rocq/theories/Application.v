(** Model of hydra/src/application.rs: run and test.  No proofs in this file.

    Both spawn a process (the application process below) that traps exits, awaits the user's start()
    and then loops over its messages; run and test return when that process answers on the oneshot
    channel or is gone without an answer.  Not modelled: logging, the panic hook, the tokio runtimes,
    the console server (feature "console"). *)
From stdpp Require Import base list gmap numbers strings countable.
From Verif Require Import Prog Types Mailbox World ProcApi GenServer Loop.

(** What the application process asks of the node. *)
Inductive request := QExit (p : pid) (why : exit_reason) | QShutdownTimer.
Global Instance request_eq_dec : EqDecision request. Proof. solve_decision. Defined.

(** application.rs:98-134, the body of run's loop; [p]: the pid returned by start; [sp]: the process of
    the signal handler, if graceful shutdown is configured.  A user message of the application's type
    is ShutdownTimeout, the only value of that type (application.rs:21-24). *)
Definition run_turn (p : pid) (sp : option pid) (m : message) : list request * lstatus unit :=
  match m with
  | MUser _ => ([QExit p RKill], LServing)
  | MSystem (SExit e why) =>
      if decide (e = p) then ([], LDone tt)
      else if decide (sp = Some e) then ([QExit p (RCustom "shutdown"); QShutdownTimer], LServing)
      else ([], LServing)
  | _ => ([], LServing)
  end.
(** application.rs:171-184, the body of test's loop: the reason is sent on the channel. *)
Definition test_turn (p : pid) (m : message) : list request * lstatus exit_reason :=
  match m with
  | MSystem (SExit e why) => if decide (e = p) then ([], LDone why) else ([], LServing)
  | _ => ([], LServing)
  end.

(** What run and test get from the oneshot channel: nothing yet, an answer, or an error because the
    application process is gone (it panicked). *)
Inductive answer (A : Type) := Pending | Answered (a : A) | Lost.
Global Arguments Pending {A}.
Global Arguments Answered {A} a.
Global Arguments Lost {A}.
Definition answer_of {R} (s : lstatus R) : answer R :=
  match s with LServing => Pending | LDone r => Answered r | LCrashed _ => Lost end.
(** application.rs:82, 136-147 and 168, 186-188: a start that fails is answered at once. *)
Definition run_answer (start : result pid) (s : lstatus unit) : answer unit :=
  match start with ROk _ => answer_of s | RErr _ => Answered tt | RPanic _ => Lost end.
Definition test_answer (start : result pid) (s : lstatus exit_reason) : answer exit_reason :=
  match start with ROk _ => answer_of s | RErr why => Answered why | RPanic _ => Lost end.
(** application.rs:149 [let _ = rx.await]: run returns on an answer and on an error. *)
Definition run_returns (a : answer unit) : bool := match a with Pending => false | _ => true end.
(** application.rs:191-195; exit_reason.rs: is_custom, PartialEq<&str>. *)
Inductive verdict := Waiting | Passes | Fails.
Definition test_verdict (a : answer exit_reason) : verdict :=
  match a with
  | Pending => Waiting
  | Answered (RCustom s) => if decide (s = "shutdown"%string) then Passes else Fails
  | Answered _ | Lost => Passes
  end.

(** application.rs:203-216 signal_handler, in process [i]: which reason it exits with. *)
Inductive signal := SigTerm | CtrlC.
Definition signal_handler (i : N) (s : signal) : prog world unit :=
  exit i (PLocal i) (RCustom match s with SigTerm => "sigterm" | CtrlC => "ctrl_c" end).
