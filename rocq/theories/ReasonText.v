(** Model of exit reasons as texts: exit_reason.rs:20-72.  No proofs in this file. *)
From stdpp Require Import base strings.
From Verif Require Import Types.

(** exit_reason.rs:23-40 is_normal, is_kill, is_ignore, is_custom. *)
Definition is_normal (r : exit_reason) : bool := match r with RNormal => true | _ => false end.
Definition is_kill (r : exit_reason) : bool := match r with RKill => true | _ => false end.
Definition is_ignore (r : exit_reason) : bool := match r with RIgnore => true | _ => false end.
Definition is_custom (r : exit_reason) : bool := match r with RCustom _ => true | _ => false end.
(** :43-53 From<String>, From<&str>. *)
Definition reason_from (s : string) : exit_reason := RCustom s.
(** :55-62 PartialEq<&str> for ExitReason. *)
Definition reason_is (r : exit_reason) (s : string) : bool := match r with RCustom t => bool_decide (t = s) | _ => false end.
(** :64-71 PartialEq<ExitReason> for &str. *)
Definition is_reason (s : string) (r : exit_reason) : bool := match r with RCustom t => bool_decide (s = t) | _ => false end.
