(** What an alias can be lost to: the calls that leave it alone.  No proofs in this file. *)
From stdpp Require Import base list gmap numbers strings countable sorting.
From Verif Require Import Prog Types Mailbox World ProcApi NodeApi Api SchedSpec.

(** The destinations do not name the alias [k]. *)
Definition names_not (k : N) (ds : dests) : Prop := forall r, DAlias r ∈ dests_list ds -> ref_id r <> k.

(** Calls that leave the alias [k] of process [me] alone: nobody passes its id to [Process::unalias], [me] does not
    end, no other node says that a monitor with that id fired - and, for a one-shot alias ([b]), nobody sends to it.
    Everything else may go on: the ends, monitors, aliases and demonitors of others, connections and their losses,
    timers, names, links. *)
Definition leaves_alias (k me : N) (b : bool) (c : call) : Prop :=
  match c with
  | CUnalias _ r => ref_id r <> k
  | CFinish i | CCrash i _ => i <> me
  | CSend ds _ | CSendAfter ds _ _ => b = true -> names_not k ds
  | CFrame _ _ (FSend ts _) => b = true -> TAlias k ∉ ts
  | CFrame _ _ (FMonitorDown rs _) => k ∉ rs
  | _ => True
  end.

(** The alias belongs to its owner (alias.rs, process.rs:66-79): only calls of [me] itself pass its reference to
    unalias; [me] does not end. *)
Definition unaliased_by_owner (k me : N) (c : call) : Prop :=
  match c with
  | CUnalias i r => i = me -> ref_id r <> k
  | CFinish i | CCrash i _ => i <> me
  | CFrame _ _ _ => False
  | _ => True
  end.
