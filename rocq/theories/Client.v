(** The client side of servers and of supervision: a process that makes calls one after the other and
    waits for messages in between, while everybody else does anything at any time.  Models
    gen_server.rs:144-272 (stop, call), gen_server.rs:283-289 (reply), from.rs and shutdown.rs:40-129.
    No proofs in this file.

    A sequential piece of code run by one process is a [script]: calls of the API (Api.v, each a
    program of atomic steps), waits for a message, possibly limited in time, and removals of messages
    from the own mailbox.  Its steps are interleaved with arbitrary steps of other threads. *)
From stdpp Require Import base list gmap numbers strings countable sorting relations.
From Verif Require Import Prog Types Mailbox World ProcApi NodeApi Api GenServer.
From Verif Require Super.

Inductive script (R : Type) :=
| SRet (r : R)
| SUnreachable                                                        (* unreachable!() *)
| SCall (c : call) (k : val -> script R)
| SWait (T : N) (f : message -> bool) (limit : option N) (k : option message -> script R)
    (* Process::receiver().for_message::<T>().select(f).await, alone (limit = None) or inside
       Process::timeout(limit, ..): process.rs:264-273, process_receiver.rs:36-107 *)
| SFlush (T : N) (f : message -> bool) (k : script R).
    (* Process::receiver().for_message::<T>().remove(f): process_receiver.rs:110-147 *)
Global Arguments SRet {R} r.
Global Arguments SUnreachable {R}.
Global Arguments SCall {R} c k.
Global Arguments SWait {R} T f limit k.
Global Arguments SFlush {R} T f k.

(** Where the process is: before a step of its script, inside a call, or waiting (until a deadline). *)
Inductive cstate (R : Type) :=
| At (s : script R)
| Busy (c : call) (p : prog world val) (k : val -> script R)
| Waits (T : N) (f : message -> bool) (deadline : option N) (k : option message -> script R).
Global Arguments At {R} s.
Global Arguments Busy {R} c p k.
Global Arguments Waits {R} T f deadline k.

(** What the process did, in order. *)
Inductive deed := Did (c : call) (v : val) | Got (m : message) | GaveUp | Flushed.

Section client.
  Context (S : serde) (me : N).
  (** A call that is not made by [me]. *)
  Definition foreign_call (c : call) : Prop := caller c <> Some me.
  (** A step of somebody else: an atomic step of a call in progress, or the beginning of a call. *)
  Definition other : sys world val -> sys world val -> Prop := sys_step (calls_of S foreign_call).
  Definition expired (deadline : option N) (w : world) : Prop :=
    match deadline with Some t => (t <= w_now w)%N | None => False end.

  (** One step of the system.  A waiting select looks at everything that has arrived; the timeout
      (pingora_timeout, process.rs:264-273) polls it before it looks at the clock (a message that is
      there wins over an expired deadline). *)
  Inductive cstep {R} : sys world val * cstate R -> list deed -> sys world val * cstate R -> Prop :=
  | c_other s s' c : other s s' -> cstep (s, c) [] (s', c)
  | c_begin s c k : cstep (s, At (SCall c k)) [] (s, Busy c (call_prog S c) k)
  | c_tick w ts c g f p k : g w = true -> cstep (Sys w ts, Busy c (Atom g f p) k) [] (Sys (f w) ts, Busy c (p w) k)
  | c_return s c v k : cstep (s, Busy c (Ret v) k) [Did c v] (s, At (k v))
  | c_wait s T f limit k :
      cstep (s, At (SWait T f limit k)) [] (s, Waits T f ((fun d => (w_now (s_world s) + d)%N) <$> limit) k)
  | c_sleep w ts T f t k w1 : run (try_receive S me T f false) w = Done w1 (Some Waiting) ->
      cstep (Sys w ts, Waits T f t k) [] (Sys w1 ts, Waits T f t k)
  | c_found w ts T f t k w1 m : run (try_receive S me T f false) w = Done w1 (Some (Found m)) ->
      cstep (Sys w ts, Waits T f t k) [Got m] (Sys w1 ts, At (k (Some m)))
  | c_expired w ts T f t k w1 : run (try_receive S me T f false) w = Done w1 (Some Waiting) -> expired t w ->
      cstep (Sys w ts, Waits T f t k) [GaveUp] (Sys w1 ts, At (k None))
  | c_flush w ts T f k l l' : w_loc w !! me = Some l -> remove S T f false l = Some l' ->
      cstep (Sys w ts, At (SFlush T f k)) [Flushed] (Sys (up_loc (<[me := l']>) w) ts, At k).
  (** A run, with what the process did. *)
  Inductive cruns {R} : sys world val * cstate R -> list deed -> sys world val * cstate R -> Prop :=
  | cruns_nil x : cruns x [] x
  | cruns_cons x a y tr z : cstep x a y -> cruns y tr z -> cruns x (a ++ tr) z.
  (** The process is between two calls: it has followed some script from the start of the node. *)
  Definition idle (s : sys world val) : Prop :=
    exists R (sc sc' : script R) tr, cruns (Sys world0 [], At sc) tr (s, At sc').
End client.

(** ** gen_server.rs:213-272 call *)
Inductive call_result (M : Type) := CallOk (m : M) | ServerDown (why : exit_reason) | CallTimeout.
Global Arguments CallOk {M} m.
Global Arguments ServerDown {M} why.
Global Arguments CallTimeout {M}.

Section gen.
  Context {M : Type} (G : gtype M) (me : N).
  (** :233-245 the filter of the receiver. *)
  Definition answer_to (r : reference) (m : message) : bool :=
    match gview G m with
    | inl (GReply tag _) => bool_decide (tag = r)
    | inr (SProcessDown _ tag _) => bool_decide (tag = r)
    | _ => false
    end.
  (** :265 the filter of the removal. *)
  Definition reply_to (r : reference) (m : message) : bool :=
    match gview G m with inl (GReply tag _) => bool_decide (tag = r) | _ => false end.
  (** :221-227: the monitor is an alias only if the server is remote. *)
  Definition call_monitor (d : dest) : call :=
    if dest_is_local d then CMonitor me d else CMonitorAlias me d true.
  Definition gs_call (d : dest) (m : M) (limit : option N) : script (call_result M) :=
    SCall (call_monitor d) (fun v =>
      match v with
      | VRef r =>
          SCall (CSend (DsOne d) (gt_val G (GCall (From (PLocal me) r (negb (dest_is_local d))) m))) (fun _ =>
          SWait (gt_id G) (answer_to r) (Some (default 5000%N limit)) (fun x =>
            match x with
            | Some m =>
                match gview G m with
                | inl (GReply _ m) => SCall (CDemonitor me r) (fun _ => SRet (CallOk m))
                | inr (SProcessDown _ _ why) => SRet (ServerDown why)
                | _ => SUnreachable
                end
            | None => SCall (CDemonitor me r) (fun _ => SFlush (gt_id G) (reply_to r) (SRet CallTimeout))
            end))
      | _ => SUnreachable
      end).
  (** gen_server.rs:283-289 reply. *)
  Definition gs_reply (f : from) (m : M) : call :=
    CSend (DsOne (if f_alias f then DAlias (f_tag f) else DPid (f_pid f))) (gt_val G (GReply (f_tag f) m)).

  (** ** gen_server.rs:144-183 stop: None = Ok(()), Some r = Err(r) *)
  Definition down_for (r : reference) (m : message) : bool :=
    match m with MSystem (SProcessDown _ tag _) => bool_decide (tag = r) | _ => false end.
  Definition gs_stop (d : dest) (why : exit_reason) (limit : option N) : script (option exit_reason) :=
    SCall (CMonitor me d) (fun v =>
      match v with
      | VRef r =>
          SCall (CSend (DsOne d) (gt_val G (GStop why))) (fun _ =>
          SWait (gt_id G) (down_for r) limit (fun x =>
            match x with
            | Some (MSystem (SProcessDown _ _ actual)) =>
                SRet (if decide (why = actual) then None else Some actual)
            | Some _ => SUnreachable
            | None => SCall (CDemonitor me r) (fun _ => SRet (Some (RCustom "timeout")))
            end))
      | _ => SUnreachable
      end).
End gen.

(** ** shutdown.rs:40-129; [T] is the type of receiver() without for_message, and () in line 45 *)
Section shutdown.
  Context (T me : N).
  (** :111-129 unlink_flush (what it returns is not used). *)
  Definition exit_of (p : pid) (m : message) : bool :=
    match m with MSystem (SExit q _) => bool_decide (q = p) | _ => false end.
  Definition unlink_flush (p : pid) : script unit :=
    SCall (CUnlink me p) (fun _ => SFlush T (exit_of p) (SRet tt)).
  (** What follows the wait for the monitor to fire. *)
  Definition then_flush (p : pid) (m : message) : script unit :=
    match m with MSystem (SProcessDown _ _ _) => unlink_flush p | _ => SUnreachable end.
  (** :41-64. *)
  Definition shutdown_brutal_kill (p : pid) (r : reference) : script unit :=
    SCall (CExit me p RKill) (fun _ =>
    SWait T (down_for r) None (fun x => match x with Some m => then_flush p m | None => SUnreachable end)).
  (** :68-89. *)
  Definition shutdown_timeout (p : pid) (r : reference) (limit : N) : script unit :=
    SCall (CExit me p (RCustom "shutdown")) (fun _ =>
    SWait T (down_for r) (Some limit) (fun x =>
      match x with Some m => then_flush p m | None => shutdown_brutal_kill p r end)).
  (** :92-106. *)
  Definition shutdown_infinity (p : pid) (r : reference) : script unit :=
    SCall (CExit me p (RCustom "shutdown")) (fun _ =>
    SWait T (down_for r) None (fun x => match x with Some m => then_flush p m | None => SUnreachable end)).
End shutdown.

(** ** supervisor.rs:961-969 shutdown (the type of [how] is that of Super.v) *)
Definition shutdown_child (T me : N) (p : pid) (how : Super.shutdown) : script unit :=
  SCall (CMonitor me (DPid p)) (fun v =>
    match v with
    | VRef r =>
        match how with
        | Super.BrutalKill => shutdown_brutal_kill T me p r
        | Super.Within limit => shutdown_timeout T me p r limit
        | Super.Infinity => shutdown_infinity T me p r
        end
    | _ => SUnreachable
    end).

(** ** Playing a client against complete calls of others: used for examples *)
Inductive move :=
| Theirs (c : call)              (* somebody else's call *)
| Mine (meanwhile : list call).  (* the process' next step; if it waits, others make these calls before it looks *)
Section play.
  Context (S : serde) (me : N) {R : Type}.
  Fixpoint theirs (cs : list call) (w : world) : option world :=
    match cs with
    | [] => Some w
    | c :: cs =>
        if bool_decide (caller c = Some me) then None
        else match run (call_prog S c) w with
             | Done w1 _ | Panicked w1 _ => theirs cs w1
             | Blocked _ => None
             end
    end.
  Definition mine (cs : list call) (w : world) (s : script R) : option (world * script R * deed) :=
    match s with
    | SCall c k => match run (call_prog S c) w with Done w1 v => Some (w1, k v, Did c v) | _ => None end
    | SWait T f limit k =>
        match theirs cs w with
        | Some w0 =>
            match run (try_receive S me T f false) w0 with
            | Done w1 (Some (Found m)) => Some (w1, k (Some m), Got m)
            | Done w1 (Some Waiting) =>
                match limit with
                | Some d => if (w_now w + d <=? w_now w0)%N then Some (w1, k None, GaveUp) else None
                | None => None
                end
            | _ => None
            end
        | None => None
        end
    | SFlush T f k =>
        match w_loc w !! me with
        | Some l => match remove S T f false l with Some l' => Some (up_loc (<[me := l']>) w, k, Flushed) | None => None end
        | None => None
        end
    | _ => None
    end.
  Fixpoint cplay (ms : list move) (w : world) (s : script R) : option (world * script R * list deed) :=
    match ms with
    | [] => Some (w, s, [])
    | Theirs c :: ms => match theirs [c] w with Some w1 => cplay ms w1 s | None => None end
    | Mine cs :: ms =>
        match mine cs w s with
        | Some (w1, s1, d) => match cplay ms w1 s1 with Some (w2, s2, tr) => Some (w2, s2, d :: tr) | None => None end
        | None => None
        end
    end.
End play.
