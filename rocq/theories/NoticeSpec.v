(** Specification vocabulary for C80: the notices of a monitor are about what was monitored, and go to
    the process that monitors. *)
From stdpp Require Import base list gmap numbers strings.
From Verif Require Import Prog Types Mailbox World ProcApi NodeApi Api Client.

(** The call [c], made by [me], returned [v], and thereby monitors the process [d] with reference [r]. *)
Definition monitors (me : N) (c : call) (v : val) (r : reference) (d : dest) : Prop :=
  match c, v with
  | CMonitor o d', VRef r' | CMonitorAlias o d' _, VRef r' => o = me /\ r' = r /\ d' = d
  | CSpawn o _ _, VPidRef p r' => o = me /\ r' = r /\ DPid p = d
  | _, _ => False
  end.
(** ... monitors the node [nd] with reference [r]. *)
Definition monitors_node (me : N) (c : call) (v : val) (r : reference) (nd : node) : Prop :=
  match c, v with CNodeMonitor o nd', VRef r' => o = me /\ r' = r /\ nd' = nd | _, _ => False end.
(** The message is a notice with reference [r]. *)
Definition notice_for (r : reference) (m : sysmsg) : Prop :=
  match m with SProcessDown _ r' _ | SNodeDown _ r' => r' = r | SExit _ _ => False end.
(** What was put in the mailbox of [o] is a notice with reference [r]. *)
Definition is_notice (r : reference) (x : item) : Prop :=
  match x with IProcessDown _ r' _ | INodeDown _ r' => r' = r | ISystem m => notice_for r m | _ => False end.
