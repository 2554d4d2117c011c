(** Specification vocabulary for statements about every schedule. *)
From stdpp Require Import base list gmap numbers strings countable sorting.
From Verif Require Import Prog Types Mailbox World ProcApi NodeApi Api.

(** The pids / references a call newly handed out by returning [v]. *)
Definition new_pids (v : val) : list pid :=
  match v with VPid p => [p] | VPidRef p _ => [p] | VWorkers s r => [s; r] | _ => [] end.
Definition new_refs (v : val) : list reference :=
  match v with VRef r => [r] | VPidRef _ r => [r] | _ => [] end.
(** What the calls that have returned so far handed out. *)
Definition returned_vals (s : sys world val) : list val :=
  omap (fun p => match p with Ret v => Some v | _ => None end) (s_threads s).
Definition handed_pids (s : sys world val) : list pid := returned_vals s ≫= new_pids.
Definition handed_refs (s : sys world val) : list reference := returned_vals s ≫= new_refs.

(** The down notices for a monitor reference that were ever put into a mailbox. *)
Definition is_down (r : reference) (x : N * item) : Prop :=
  match snd x with IProcessDown _ r' _ => r' = r | INodeDown _ r' => r' = r | _ => False end.
Global Instance is_down_dec r x : Decision (is_down r x).
Proof. destruct x as [i []]; cbn; apply _. Defined.
Definition downs (r : reference) (w : world) : list (N * item) := filter (is_down r) (w_log w).

(** Messages and aliases.  [k]: an alias; [v]: a message (to follow it, no other message carries the
    same bytes or value). *)
Section alias_spec.
  Context (S : serde) (k : N) (v : value).
  (** The item is the message [v], handed over in memory or in serialised form. *)
  Definition carries (x : item) : Prop := x = IUserLocal v \/ x = IUserRemote (ser S v).
  Global Instance carries_dec x : Decision (carries x). Proof. unfold carries. apply _. Defined.
  (** The mailboxes [v] was ever put into. *)
  Definition carried (w : world) : list (N * item) := filter (fun x => carries (snd x)) (w_log w).
  Definition other_value (u : value) : Prop := ~ carries (IUserLocal u) /\ ~ carries (IUserRemote (ser S u)).
  Definition only_alias (d : dest) : Prop := dest_is_local d = true -> d = DAlias (RLocal k).
  Definition dests_list (ds : dests) : list dest := match ds with DsOne d => [d] | DsMany l => l end.
  (** The call sends [v], if at all, to no local destination but the alias [k]. *)
  Definition only_via_alias (c : call) : Prop :=
    match c with
    | CSend ds u | CSendAfter ds u _ => other_value u \/ Forall only_alias (dests_list ds)
    | CFrame _ _ (FSend ts m) => ~ carries (IUserRemote m) \/ Forall (fun t => t = TAlias k) ts
    | _ => True
    end.
  (** The same for the timers that are already running. *)
  Definition timers_only_via_alias (w : world) : Prop :=
    forall i t, w_tasks w !! i = Some t ->
      other_value (t_val t) \/ Forall only_alias (dests_list (t_dests t)).
End alias_spec.
