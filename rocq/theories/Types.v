(** The data types of hydra that every part of the model shares.  Ids are u64 / NonZeroU64 in
    the code and unbounded [N] here; where ranges matter (the wire format) they are explicit
    predicates in Codec.v. *)
From stdpp Require Import base list gmap numbers strings countable.
From Coq Require Import Ascii.

(** hydra/src/exit_reason.rs:9-19 [ExitReason]. *)
Inductive exit_reason := RNormal | RKill | RIgnore | RCustom (s : string).

(** std::net::SocketAddr: V4(ip, port) / V6(ip, port, flowinfo, scope_id). *)
Inductive sockaddr :=
| SA4 (ip port : N)
| SA6 (ip port flow scope : N).

(** hydra/src/pid.rs:22-26 [Pid]. *)
Inductive pid := PLocal (id : N) | PRemote (id node : N).
(** hydra/src/reference.rs:24-28 [Reference]. *)
Inductive reference := RLocal (id : N) | RRemote (id node : N).
(** hydra/src/node.rs:35-39 [Node]. *)
Inductive node := NLocal | NRemote (name : string) (addr : sockaddr).
(** hydra/src/dest.rs:12-19 [Dest]. *)
Inductive dest := DPid (p : pid) | DNamed (name : string) (n : node) | DAlias (r : reference).
(** hydra/src/dest.rs:22-28 [Dests]. *)
Inductive dests := DsOne (d : dest) | DsMany (l : list dest).

Global Instance exit_reason_eq_dec : EqDecision exit_reason. Proof. solve_decision. Defined.
Global Instance sockaddr_eq_dec : EqDecision sockaddr. Proof. solve_decision. Defined.
Global Instance pid_eq_dec : EqDecision pid. Proof. solve_decision. Defined.
Global Instance reference_eq_dec : EqDecision reference. Proof. solve_decision. Defined.
Global Instance node_eq_dec : EqDecision node. Proof. solve_decision. Defined.
Global Instance dest_eq_dec : EqDecision dest. Proof. solve_decision. Defined.

Global Program Instance pid_countable : Countable pid :=
  inj_countable' (fun p => match p with PLocal i => inl i | PRemote i n => inr (i, n) end)
                 (fun s => match s with inl i => PLocal i | inr (i, n) => PRemote i n end) _.
Next Obligation. by intros []. Qed.
Global Program Instance reference_countable : Countable reference :=
  inj_countable' (fun p => match p with RLocal i => inl i | RRemote i n => inr (i, n) end)
                 (fun s => match s with inl i => RLocal i | inr (i, n) => RRemote i n end) _.
Next Obligation. by intros []. Qed.
Global Program Instance sockaddr_countable : Countable sockaddr :=
  inj_countable' (fun a => match a with SA4 i p => inl (i, p) | SA6 i p f s => inr (i, p, f, s) end)
                 (fun s => match s with inl (i, p) => SA4 i p | inr (i, p, f, s) => SA6 i p f s end) _.
Next Obligation. by intros []. Qed.
Global Program Instance node_countable : Countable node :=
  inj_countable' (fun a => match a with NLocal => inl tt | NRemote n a => inr (n, a) end)
                 (fun s => match s with inl tt => NLocal | inr (n, a) => NRemote n a end) _.
Next Obligation. by intros []. Qed.

(** pid.rs:40-66, reference.rs:50-76: accessors.  LOCAL_NODE_ID = 0, INVALID_NODE_ID = u64::MAX
    (node_registry.rs:36, 39). *)
Definition LOCAL_NODE_ID : N := 0.
Definition INVALID_NODE_ID : N := 18446744073709551615.
Definition pid_is_local (p : pid) : bool := match p with PLocal _ => true | PRemote _ _ => false end.
Definition pid_id (p : pid) : N := match p with PLocal i => i | PRemote i _ => i end.
Definition pid_node (p : pid) : N := match p with PLocal _ => LOCAL_NODE_ID | PRemote _ n => n end.
Definition ref_is_local (r : reference) : bool := match r with RLocal _ => true | RRemote _ _ => false end.
Definition ref_id (r : reference) : N := match r with RLocal i => i | RRemote i _ => i end.
Definition ref_node (r : reference) : N := match r with RLocal _ => LOCAL_NODE_ID | RRemote _ n => n end.
Definition node_is_local (n : node) : bool := match n with NLocal => true | NRemote _ _ => false end.
(** dest.rs:32-47. *)
Definition dest_is_local (d : dest) : bool :=
  match d with DPid p => pid_is_local p | DNamed _ n => node_is_local n | DAlias r => ref_is_local r end.

(** Bytes on the wire. *)
Definition bytes := list ascii.

(** A user message (any [Receivable] Rust value): its TypeId and its contents. *)
Record value := Val { v_type : N; v_data : N }.
Global Instance value_eq_dec : EqDecision value. Proof. solve_decision. Defined.

(** hydra/src/serialize.rs:7-14: serde/rmp as an oracle. *)
Record serde := Serde { ser : value -> bytes; de : N -> bytes -> option value }.

(** hydra/src/system_message.rs:9-16. *)
Inductive sysmsg :=
| SExit (from : pid) (r : exit_reason)
| SProcessDown (d : dest) (r : reference) (why : exit_reason)
| SNodeDown (n : node) (r : reference).

(** hydra/src/process_item.rs:11-26. *)
Inductive item :=
| IUserRemote (b : bytes)
| IUserLocal (v : value)
| ISystem (m : sysmsg)
| IProcessDown (d : dest) (r : reference) (why : exit_reason)
| INodeDown (n : node) (r : reference)
| IProcessUpdate (r : reference) (p : pid)
| IAliasDeactivated (id : N).
Global Instance sysmsg_eq_dec : EqDecision sysmsg. Proof. solve_decision. Defined.
Global Instance item_eq_dec : EqDecision item. Proof. solve_decision. Defined.

(** hydra/src/process_monitor.rs:5-10. *)
Inductive pmonitor := MForProcess (p : option pid) | MForNode (n : node).
Global Instance pmonitor_eq_dec : EqDecision pmonitor. Proof. solve_decision. Defined.

(** hydra/src/message.rs:5-10 [Message<T>], T's TypeId being part of the value. *)
Inductive message := MUser (v : value) | MSystem (m : sysmsg).

(** ** Frames, hydra/src/frame/*.rs *)
(** frame/send.rs:12-16. *)
Inductive send_target := TPid (id : N) | TNamed (s : string) | TAlias (id : N).
(** frame/mod.rs:52-63 with the payload structs: hello.rs:18-22, send.rs:20-23, monitor.rs:6-12,
    monitor_down.rs:8-11, monitor_update.rs:6-10, link.rs:6-10, link_down.rs:8-12, exit.rs:8-12. *)
Inductive frame :=
| FHello (name : string) (addr : sockaddr) (challenge : bytes)
| FPing
| FPong
| FSend (targets : list send_target) (msg : bytes)
| FMonitor (install : bool) (process_id : option N) (process_name : option string)
           (from_id : option N) (reference_id : N)
| FMonitorDown (monitors : list N) (r : exit_reason)
| FMonitorUpdate (process_id from_id reference_id : N)
| FLink (install : bool) (process_id from_id : N)
| FLinkDown (links : list N) (from_id : N) (r : exit_reason)
| FExit (process_id from_id : N) (r : exit_reason).
Global Instance send_target_eq_dec : EqDecision send_target. Proof. solve_decision. Defined.
Global Instance frame_eq_dec : EqDecision frame. Proof. solve_decision. Defined.
