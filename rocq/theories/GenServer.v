(** Model of gen_server.rs: the server process.  (The client side, call and stop, is in Client.v.)
    No proofs in this file.

    The implementation of a server (the trait's callbacks) is a parameter: what each callback returns
    and the server's new state are arbitrary functions of its state and argument; the state may hold
    anything, so this covers callbacks that depend on the outside world.  What callbacks do to other
    processes is not part of the trace; what they may do to the own mailbox is a parameter ([own]) of
    the runs below. *)
From stdpp Require Import base list gmap numbers strings countable.
From Verif Require Import Prog Types Mailbox World ProcApi.

(** from.rs:9-13. *)
Record from := From { f_pid : pid; f_tag : reference; f_alias : bool }.

(** gen_server.rs:22-33 GenServerMessage<T>. *)
Inductive gmsg (M : Type) :=
| GCast (m : M) | GCall (f : from) (m : M) | GReply (tag : reference) (m : M) | GStop (r : exit_reason).
Global Arguments GCast {M} m.
Global Arguments GCall {M} f m.
Global Arguments GReply {M} tag m.
Global Arguments GStop {M} r.

(** What an awaited callback may do: return Ok, return Err(reason), or panic. *)
Inductive result (A : Type) := ROk (a : A) | RErr (r : exit_reason) | RPanic (s : string).
Global Arguments ROk {A} a.
Global Arguments RErr {A} r.
Global Arguments RPanic {A} s.

(** The callbacks of an implementation with messages [M] and state [St] (gen_server.rs:110-338);
    [terminate] returns nothing but may panic. *)
Record callbacks (M St : Type) := Callbacks {
  handle_cast : St -> M -> St * result unit;
  handle_call : St -> M -> from -> St * result (option M);
  handle_info : St -> M + sysmsg -> St * result unit;
  terminate : St -> exit_reason -> St * option string }.
Global Arguments Callbacks {M St}.
Global Arguments handle_cast {M St}.
Global Arguments handle_call {M St}.
Global Arguments handle_info {M St}.
Global Arguments terminate {M St}.

(** What happens in a server, in order: callbacks with what they returned, replies sent. *)
Inductive event (M : Type) :=
| ECast (m : M) (r : result unit)
| ECall (m : M) (f : from) (r : result (option M))
| EInfo (m : M + sysmsg) (r : result unit)
| EReply (f : from) (m : M)
| ETerminate (r : exit_reason).
Global Arguments ECast {M} m r.
Global Arguments ECall {M} m f r.
Global Arguments EInfo {M} m r.
Global Arguments EReply {M} f m.
Global Arguments ETerminate {M} r.

(** A server is serving, has exited with a reason (Process::exit(current, r) and return), or has
    panicked. *)
Inductive status (St : Type) := Serving (st : St) | Exited (r : exit_reason) | Crashed (s : string).
Global Arguments Serving {St} st.
Global Arguments Exited {St} r.
Global Arguments Crashed {St} s.

Section server.
  Context {M St : Type} (cb : callbacks M St).

  (** The two lines after a callback's Err, a Stop or the parent's exit:
      gen_server.rs:399-401 and its six copies. *)
  Definition finish (st : St) (why : exit_reason) : list (event M) * status St :=
    match terminate cb st why with
    | (_, None) => ([ETerminate why], Exited why)
    | (_, Some s) => ([ETerminate why], Crashed s)
    end.
  (** A callback returned [r] in state [st]; [ok] is what comes after Ok. *)
  Definition after {A} (st : St) (r : result A) (ok : A -> list (event M)) : list (event M) * status St :=
    match r with
    | ROk a => (ok a, Serving st)
    | RErr why => finish st why
    | RPanic s => ([], Crashed s)
    end.
  (** gen_server.rs:393-446: one round of the loop, for a received message. *)
  Definition turn (parent : pid) (st : St) (m : gmsg M + sysmsg) : list (event M) * status St :=
    match m with
    | inl (GCast m) =>
        let '(st', r) := handle_cast cb st m in
        let '(es, s) := after st' r (fun _ => []) in (ECast m r :: es, s)
    | inl (GCall f m) =>
        let '(st', r) := handle_call cb st m f in
        let '(es, s) := after st' r (fun a => match a with Some x => [EReply f x] | None => [] end) in
        (ECall m f r :: es, s)
    | inl (GReply _ m) =>
        let '(st', r) := handle_info cb st (inl m) in
        let '(es, s) := after st' r (fun _ => []) in (EInfo (inl m) r :: es, s)
    | inl (GStop why) => finish st why
    | inr (SExit p why) =>
        if decide (p = parent) then finish st why
        else let '(st', r) := handle_info cb st (inr (SExit p why)) in
             let '(es, s) := after st' r (fun _ => []) in (EInfo (inr (SExit p why)) r :: es, s)
    | inr m =>
        let '(st', r) := handle_info cb st (inr m) in
        let '(es, s) := after st' r (fun _ => []) in (EInfo (inr m) r :: es, s)
    end.
End server.

(** The TypeId of GenServerMessage<T> and the correspondence between its values and [value]. *)
Record gtype (M : Type) := GType { gt_id : N; gt_val : gmsg M -> value; gt_view : value -> gmsg M }.
Global Arguments GType {M}.
Global Arguments gt_id {M}.
Global Arguments gt_val {M}.
Global Arguments gt_view {M}.
Definition gview {M} (G : gtype M) (m : message) : gmsg M + sysmsg :=
  match m with MUser v => inl (gt_view G v) | MSystem s => inr s end.

Section loop.
  Context {M St : Type} (S : serde) (G : gtype M) (cb : callbacks M St) (parent : pid) (own : plocal -> plocal -> Prop).
  (** Runs of the loop gen_server.rs:391-447 from a successful init on: [serves st0 l0 arrived handled
      events status l]: starting in state [st0] with mailbox [l0], [arrived] has arrived and [handled]
      has been received and dealt with.  Process::receive is the strict receive of Mailbox.v
      (process.rs:211-216); a message of another type is a panic (process_receiver.rs:66, 101). *)
  Inductive serves (st0 : St) (l0 : plocal) : list item -> list message -> list (event M) -> status St -> plocal -> Prop :=
  | serves_init : serves st0 l0 [] [] [] (Serving st0) l0
  | serves_arrival arr ms es s l x : serves st0 l0 arr ms es s l ->
      serves st0 l0 (arr ++ [x]) ms es s (set_chan (l_chan l ++ [x]) l)
  | serves_turn arr ms es st l m l1 l2 : serves st0 l0 arr ms es (Serving st) l ->
      receive S (gt_id G) true l = (Found m, l1) -> own l1 l2 ->
      serves st0 l0 arr (ms ++ [m]) (es ++ fst (turn cb parent st (gview G m))) (snd (turn cb parent st (gview G m))) l2
  | serves_wait arr ms es st l l1 : serves st0 l0 arr ms es (Serving st) l ->
      receive S (gt_id G) true l = (Waiting, l1) -> serves st0 l0 arr ms es (Serving st) l1
  | serves_type_panic arr ms es st l l1 : serves st0 l0 arr ms es (Serving st) l ->
      receive S (gt_id G) true l = (TypePanic, l1) ->
      serves st0 l0 arr ms es (Crashed "Unsupported message type!") l1.
End loop.

(** ** Starting: gen_server.rs:341-389, 450-459.  [init] is what init() does to the node, with its
    result; [None]: it did not return within options.timeout and was dropped. *)
Inductive boot := Started | Failed (r : exit_reason) | BootPanic (s : string).
(** gen_server.rs:352-389, run by the new process [i]: what it tells the starter (oneshot), or the
    panic.  The process is still to end if it failed. *)
Definition gs_boot (i : N) (name : option string) (init : prog world (option (result unit))) : prog world boot :=
  let! registered := match name with
                     | Some n => let! e := register (PLocal i) n in Ret (bool_decide (e = None))
                     | None => Ret true
                     end in
  if registered : bool then
    let! r := init in
    match r with
    | Some (ROk tt) => Ret Started
    | Some (RErr why) => do! exit i (PLocal i) why in Ret (Failed why)
    | Some (RPanic s) => Ret (BootPanic s)
    | None => do! exit i (PLocal i) (RCustom "timeout") in Ret (Failed (RCustom "timeout"))
    end
  else Ret (Failed (RCustom "already_started")).
(** The end of the new process' future: it serves on, or its object is dropped (process.rs:485-489). *)
Definition gs_boot_end (i : N) (b : boot) : prog world unit :=
  match b with
  | Started => Ret tt
  | Failed _ => drop_process i
  | BootPanic s => crash i (RCustom s)
  end.
(** gen_server.rs:341-350, 450-459 start_gen_server as seen by the starter [me]; the new process runs
    while it awaits the oneshot.  A dropped sender is 'unknown'. *)
Definition gs_start (me : N) (link : bool) (name : option string) (init : N -> prog world (option (result unit)))
  : prog world (pid + exit_reason) :=
  let! p := spawn me link false in
  let i := pid_id (fst p) in
  let! b := gs_boot i name (init i) in
  do! gs_boot_end i b in
  Ret match b with
      | Started => inl (fst p)
      | Failed why => inr why
      | BootPanic _ => inr (RCustom "unknown")
      end.
