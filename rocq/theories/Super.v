(** Model of supervisor.rs (the state machine of one supervisor process), child_spec.rs and restart.rs.
    No proofs in this file.

    A supervisor handles one message at a time, so its handlers are functions on its state.  What they
    do to the outside is recorded: every call of a start function with its outcome, every child
    process stopped.  The outcome of the n-th call of a start function is [answer n], a parameter: the
    theorems hold for every one.  Not modelled: start functions that panic or never return, tracing;
    stopping a child ([shutdown], supervisor.rs:961-969) is one step here that ends the process and
    flushes its exit message (shutdown.rs:108-128; the protocol itself is in Client.v). *)
From stdpp Require Import base list gmap numbers strings sets.
From Coq Require Import ZArith.
From Verif Require Import Types.

(** restart.rs:3-12; child_spec.rs:14-19; shutdown.rs:12-22 (durations in nanoseconds), :25-32. *)
Inductive restart := Permanent | Temporary | Transient.
Inductive child_type := Worker | SupervisorChild.
Inductive shutdown := BrutalKill | Within (d : N) | Infinity.
Inductive auto_shutdown := Never | AnySignificant | AllSignificant.
(** supervisor.rs:109-116. *)
Inductive strategy := OneForOne | OneForAll | RestForOne.
(** child_spec.rs:23-37; [sp_start]: a start function has been given. *)
Record spec := Spec {
  sp_id : string; sp_start : bool; sp_restart : restart; sp_shutdown : option shutdown;
  sp_type : child_type; sp_significant : bool }.
(** supervisor.rs:32-36. *)
Record child := Child { c_spec : spec; c_pid : option pid; c_restarting : bool }.
(** supervisor.rs:122-130; [s_restarts] newest last. *)
Record sup := Sup {
  s_children : list child; s_ids : gset string; s_restarts : list Z;
  s_strategy : strategy; s_auto : auto_shutdown; s_max : N; s_window : N }.

(** What a start function returns (child_spec.rs:25-31). *)
Inductive answer := Up (p : pid) | Down (r : exit_reason).
(** What the supervisor does to the outside. *)
Inductive effect :=
| Starts (id : string) (a : answer)   (* a call of the start function of [id] and what it returned *)
| Stops (p : pid) (how : shutdown).   (* the process [p] is terminated *)
(** The supervisor and its surroundings: how many start functions have been called; the casts to
    itself that are on their way; the effects so far, in order. *)
Record sworld := SWorld { v_sup : sup; v_tick : nat; v_casts : list string; v_log : list effect }.

Inductive sup_error :=
| EAlreadyStarted | EAlreadyPresent | EStartError (r : exit_reason) | ENotFound | ERunning | ERestarting.

(** A handler: [None] is a panic. *)
Definition sm (A : Type) := sworld -> sworld * option A.
Definition sret {A} (a : A) : sm A := fun w => (w, Some a).
Definition spanic {A} : sm A := fun w => (w, None).
Definition sbind {A B} (m : sm A) (k : A -> sm B) : sm B :=
  fun w => match m w with (w', Some a) => k a w' | (w', None) => (w', None) end.
Notation "'slet' x := m 'in' k" := (sbind m (fun x => k)) (at level 200, x binder, m at level 100, k at level 200).
Definition sget : sm sup := fun w => (w, Some (v_sup w)).

Definition with_children (f : list child -> list child) (s : sup) : sup :=
  Sup (f (s_children s)) (s_ids s) (s_restarts s) (s_strategy s) (s_auto s) (s_max s) (s_window s).
Definition with_ids (f : gset string -> gset string) (s : sup) : sup :=
  Sup (s_children s) (f (s_ids s)) (s_restarts s) (s_strategy s) (s_auto s) (s_max s) (s_window s).
Definition with_restarts (f : list Z -> list Z) (s : sup) : sup :=
  Sup (s_children s) (s_ids s) (f (s_restarts s)) (s_strategy s) (s_auto s) (s_max s) (s_window s).
Definition smod (f : sup -> sup) : sm unit := fun w => (SWorld (f (v_sup w)) (v_tick w) (v_casts w) (v_log w), Some tt).
Definition scast (id : string) : sm unit := fun w => (SWorld (v_sup w) (v_tick w) (v_casts w ++ [id]) (v_log w), Some tt).
Definition slog (e : effect) : sm unit := fun w => (SWorld (v_sup w) (v_tick w) (v_casts w) (v_log w ++ [e]), Some tt).

(** ** Children *)
Definition c_id (c : child) : string := sp_id (c_spec c).
Definition set_pid (p : option pid) (c : child) : child := Child (c_spec c) p (c_restarting c).
Definition set_restarting (b : bool) (c : child) : child := Child (c_spec c) (c_pid c) b.
(** supervisor.rs:856-865 how a child is terminated: 5 s for a worker, no limit for a supervisor. *)
Definition c_shutdown (c : child) : shutdown :=
  match sp_shutdown (c_spec c) with
  | Some h => h
  | None => match sp_type (c_spec c) with Worker => Within 5000000000 | SupervisorChild => Infinity end
  end.
Definition is_temporary (c : child) : bool := match sp_restart (c_spec c) with Temporary => true | _ => false end.
(** [children[i]] and [&mut children[i]]; an index out of range panics. *)
Definition nth_child (i : nat) : sm child :=
  slet s := sget in match s_children s !! i with Some c => sret c | None => spanic end.
Definition set_child (i : nat) (f : child -> child) : sm unit :=
  slet _ := nth_child i in smod (with_children (alter f i)).
Fixpoint position {A} (P : A -> bool) (l : list A) : option nat :=
  match l with [] => None | x :: r => if P x then Some 0 else S <$> position P r end.
(** :822-831 find_child, find_child_id. *)
Definition find_child (p : pid) (s : sup) : option nat := position (fun c => bool_decide (c_pid c = Some p)) (s_children s).
Definition find_child_id (id : string) (s : sup) : option nat := position (fun c => bool_decide (c_id c = id)) (s_children s).
(** :813-819 remove_child. *)
Definition remove_child (i : nat) : sm child :=
  slet c := nth_child i in
  slet _ := smod (with_children (delete i)) in
  slet _ := smod (with_ids (fun s => s ∖ {[c_id c]})) in
  sret c.

(** :158-172 Supervisor::add_child; :147-155 with_children (the constructor); None: the panic for an id in use. *)
Definition add_child (s : sup) (sp : spec) : option sup :=
  if decide (sp_id sp ∈ s_ids s) then None
  else Some (with_children (fun l => l ++ [Child sp None false]) (with_ids (fun i => {[sp_id sp]} ∪ i) s)).
Fixpoint add_children (s : sup) (l : list spec) : option sup :=
  match l with [] => Some s | sp :: r => match add_child s sp with Some s' => add_children s' r | None => None end end.
(** :134-144 Supervisor::new, :182-207 the other options. *)
Definition new_sup (st : strategy) (au : auto_shutdown) (mx win : N) : sup := Sup [] ∅ [] st au mx win.

Section supervisor.
  Context (answers : nat -> answer).

  (** :664-686 start_child_by_index (a spec without start function is the unwrap at :666). *)
  Definition start_child_by_index (i : nat) : sm (exit_reason + option pid) :=
    slet c := nth_child i in
    if sp_start (c_spec c) then
      fun w =>
        let a := answers (v_tick w) in
        let w' := SWorld (v_sup w) (S (v_tick w)) (v_casts w) (v_log w ++ [Starts (c_id c) a]) in
        (w', Some (match a with Up p => inr (Some p) | Down RIgnore => inr None | Down r => inl r end))
    else spanic.
  (** "child.pid = pid; child.restarting = false;" *)
  Definition started (i : nat) (p : option pid) : sm unit :=
    slet _ := set_child i (set_pid p) in set_child i (set_restarting false).

  (** :457-467 terminate_child_by_index. *)
  Definition terminate_child_by_index (i : nat) : sm unit :=
    slet c := nth_child i in
    match c_pid c with
    | None => sret tt
    | Some p =>
        slet _ := set_child i (set_pid None) in
        slet _ := set_child i (set_restarting false) in
        slog (Stops p (c_shutdown c))
    end.

  (** :430-454 terminate_children: from the last child to the first, then the temporary ones are
      removed. *)
  Fixpoint terminate_rev (i : nat) : sm (list nat) :=
    match i with
    | O => sret []
    | S i =>
        slet c := nth_child i in
        slet _ := match c_pid c with
                  | None => sret tt
                  | Some p => slet _ := set_child i (set_pid None) in slog (Stops p (c_shutdown c))
                  end in
        slet r := terminate_rev i in
        sret (if is_temporary c then i :: r else r)
    end.
  Fixpoint remove_all (l : list nat) : sm unit :=
    match l with [] => sret tt | i :: r => slet _ := remove_child i in remove_all r end.
  Definition terminate_children : sm unit :=
    slet s := sget in
    slet r := terminate_rev (length (s_children s)) in
    remove_all r.

  (** :319-350 start_children: the indices [i], [i+1], ... ([n] of them); the result is the list of
      children to remove, or the failure. *)
  Fixpoint start_from (i n : nat) : sm (exit_reason + list nat) :=
    match n with
    | O => sret (inr [])
    | S n =>
        slet x := start_child_by_index i in
        match x with
        | inr p =>
            slet _ := started i p in
            slet c := nth_child i in
            slet r := start_from (S i) n in
            sret (match r with
                  | inr l => inr (if is_temporary c && bool_decide (p = None) then i :: l else l)
                  | inl e => inl e
                  end)
        | inl _ => sret (inl (RCustom "failed_to_start_child"))
        end
    end.
  Definition start_children : sm (option exit_reason) :=
    slet s := sget in
    slet x := start_from 0 (length (s_children s)) in
    match x with
    | inr l => slet _ := remove_all (rev l) in sret None
    | inl e => sret (Some e)
    end.
  (** :470-478 init_children, the init of the GenServer (:876-880). *)
  Definition init_children : sm (option exit_reason) :=
    slet x := start_children in
    match x with
    | Some e => slet _ := terminate_children in sret (Some e)
    | None => sret None
    end.

  (** :354-377 delete_child_by_id. *)
  Definition delete_child_by_id (id : string) : sm (option sup_error) :=
    slet s := sget in
    match find_child_id id s with
    | None => sret (Some ENotFound)
    | Some i =>
        slet c := nth_child i in
        if c_restarting c then sret (Some ERestarting)
        else if bool_decide (is_Some (c_pid c)) then sret (Some ERunning)
        else slet _ := remove_child i in sret None
    end.
  (** :380-392 terminate_child_by_id. *)
  Definition terminate_child_by_id (id : string) : sm (option sup_error) :=
    slet s := sget in
    match find_child_id id s with
    | None => sret (Some ENotFound)
    | Some i => slet _ := terminate_child_by_index i in sret None
    end.
  (** :395-427 restart_child_by_id. *)
  Definition restart_child_by_id (id : string) : sm (sup_error + option pid) :=
    slet s := sget in
    match find_child_id id s with
    | None => sret (inl ENotFound)
    | Some i =>
        slet c := nth_child i in
        if c_restarting c then sret (inl ERestarting)
        else if bool_decide (is_Some (c_pid c)) then sret (inl ERunning)
        else
          slet x := start_child_by_index i in
          match x with
          | inr p => slet _ := started i p in sret (inr p)
          | inl r => sret (inl (EStartError r))
          end
    end.
  (** :689-727 start_new_child (the find(..).unwrap() of :691-695 panics for an id that is taken but
      has no child). *)
  Definition start_new_child (sp : spec) : sm (sup_error + option pid) :=
    slet s := sget in
    if decide (sp_id sp ∈ s_ids s) then
      match find_child_id (sp_id sp) s with
      | None => spanic
      | Some i => slet c := nth_child i in
                  sret (inl (if bool_decide (is_Some (c_pid c)) then EAlreadyStarted else EAlreadyPresent))
      end
    else
      slet _ := smod (with_ids (fun i => {[sp_id sp]} ∪ i)) in
      slet _ := smod (with_children (fun l => l ++ [Child sp None false])) in
      let i := length (s_children s) in
      slet x := start_child_by_index i in
      match x with
      | inr p =>
          slet _ := started i p in
          slet c := nth_child i in
          slet _ := (if is_temporary c && bool_decide (p = None) then smod (with_children (delete i)) else sret tt) in
          sret (inr p)
      | inl r => sret (inl (EStartError r))
      end.

  (** :730-750 check_auto_shutdown for a child just removed. *)
  Definition check_auto_shutdown (c : child) : sm bool :=
    slet s := sget in
    sret (match s_auto s with
          | Never => false
          | AnySignificant => sp_significant (c_spec c)
          | AllSignificant =>
              sp_significant (c_spec c) &&
              existsb (fun c => bool_decide (is_Some (c_pid c)) && sp_significant (c_spec c)) (s_children s)
          end).

  (** :753-768 add_restart at time [now] (nanoseconds); Instant - Duration panics below the earliest
      Instant (std::time, unix: i64 seconds). *)
  Definition INSTANT_MIN : Z := (- 2 ^ 63 * 1000000000)%Z.
  Definition add_restart (now : Z) : sm bool :=
    slet s := sget in
    let threshold := (now - Z.of_N (s_window s))%Z in
    if (threshold <? INSTANT_MIN)%Z then spanic
    else
      let r := filter (fun t => (threshold <= t)%Z) (s_restarts s) ++ [now] in
      slet _ := smod (with_restarts (fun _ => r)) in
      sret (N.ltb (s_max s) (N.of_nat (length r))).

  (** :608-646 restart_multiple_children. *)
  Fixpoint terminate_others (index : nat) (l : list nat) : sm unit :=
    match l with
    | [] => sret tt
    | t :: r => slet _ := (if Nat.eqb index t then sret tt else terminate_child_by_index t) in terminate_others index r
    end.
  Fixpoint start_each (l : list nat) : sm (option (nat * exit_reason)) :=
    match l with
    | [] => sret None
    | i :: r =>
        slet x := start_child_by_index i in
        match x with
        | inr p => slet _ := started i p in start_each r
        | inl e => sret (Some (i, e))
        end
    end.
  Definition restart_multiple_children (index : nat) (all : bool) : sm (option (nat * exit_reason)) :=
    slet s := sget in
    let n := length (s_children s) in
    let l := if all then seq 0 n else seq index (n - index) in
    slet _ := terminate_others index l in
    start_each l.
  (** :547-605 restart. *)
  Definition try_later (i : nat) : sm unit :=
    slet c := nth_child i in
    slet _ := set_child i (set_restarting true) in
    scast (c_id c).
  Definition restart_index (index : nat) : sm unit :=
    slet s := sget in
    match s_strategy s with
    | OneForOne =>
        slet x := start_child_by_index index in
        match x with
        | inr p => started index p
        | inl _ => try_later index
        end
    | RestForOne | OneForAll =>
        slet x := restart_multiple_children index (match s_strategy s with OneForAll => true | _ => false end) in
        match x with
        | Some (i, _) => try_later i
        | None => sret tt
        end
    end.
  (** :649-661 try_again_restart. *)
  Definition give_up : exit_reason := RCustom "shutdown".
  Definition try_again_restart (now : Z) (index : nat) : sm (option exit_reason) :=
    slet over := add_restart now in
    if (over : bool) then sret (Some give_up)
    else
      slet c := nth_child index in
      if negb (c_restarting c) then sret None
      else slet _ := restart_index index in sret None.
  (** :481-544 restart_exited_child: [None] is Ok(()). *)
  Definition normal_end (r : exit_reason) : bool :=
    match r with RNormal => true | RCustom s => bool_decide (s = "shutdown") | _ => false end.
  Definition gone (i : nat) : sm (option exit_reason) :=
    slet c := remove_child i in
    slet b := check_auto_shutdown c in
    sret (if (b : bool) then Some give_up else None).
  Definition again (now : Z) (i : nat) : sm (option exit_reason) :=
    slet over := add_restart now in
    if (over : bool) then sret (Some give_up) else slet _ := restart_index i in sret None.
  Definition restart_exited_child (now : Z) (p : pid) (r : exit_reason) : sm (option exit_reason) :=
    slet s := sget in
    match find_child p s with
    | None => sret None
    | Some i =>
        slet c := nth_child i in
        match sp_restart (c_spec c) with
        | Permanent => again now i
        | Transient => if normal_end r then gone i else again now i
        | Temporary => gone i
        end
    end.

  (** :771-810 which_children_info, count_all_children. *)
  Record child_info := Info { i_id : string; i_child : option pid; i_type : child_type; i_restarting : bool }.
  Record counts := Counts { k_specs : nat; k_active : nat; k_supervisors : nat; k_workers : nat }.
  Definition which_children (s : sup) : list child_info :=
    map (fun c => Info (c_id c) (c_pid c) (sp_type (c_spec c)) (c_restarting c)) (s_children s).
  Definition count_children (s : sup) : counts :=
    fold_left (fun k c =>
      Counts (S (k_specs k))
             (if bool_decide (is_Some (c_pid c)) then S (k_active k) else k_active k)
             (match sp_type (c_spec c) with SupervisorChild => S (k_supervisors k) | Worker => k_supervisors k end)
             (match sp_type (c_spec c) with SupervisorChild => k_workers k | Worker => S (k_workers k) end))
      (s_children s) (Counts 0 0 0 0).

  (** ** The process (GenServer callbacks :873-952) *)
  Inductive event :=
  | VExit (now : Z) (p : pid) (r : exit_reason)       (* an exit message, handle_info *)
  | VTryAgain (now : Z) (id : string)                 (* the cast to itself, handle_cast *)
  | VTryAgainPid (now : Z) (p : pid)                  (* its other form, which the code never sends *)
  | VStop (r : exit_reason)                           (* a stop, or the exit of the parent (gen_server.rs) *)
  | VStart (sp : spec) | VTerminate (id : string) | VRestart (id : string) | VDelete (id : string)
  | VCount | VWhich.
  Inductive reply :=
  | RpNone                                            (* nothing to reply to *)
  | RpStart (x : sup_error + option pid) | RpTerminate (x : option sup_error) | RpRestart (x : sup_error + option pid)
  | RpDelete (x : option sup_error) | RpCount (k : counts) | RpWhich (l : list child_info).
  (** A reply, or the reason to stop. *)
  Definition handle (e : event) : sm (exit_reason + reply) :=
    match e with
    | VExit now p r => slet x := restart_exited_child now p r in sret (match x with Some e => inl e | None => inr RpNone end)
    | VTryAgain now id =>
        slet s := sget in
        match find_child_id id s with
        | Some i => slet x := try_again_restart now i in sret (match x with Some e => inl e | None => inr RpNone end)
        | None => sret (inr RpNone)
        end
    | VTryAgainPid now p =>
        slet s := sget in
        match find_child p s with
        | Some i => slet x := try_again_restart now i in sret (match x with Some e => inl e | None => inr RpNone end)
        | None => sret (inr RpNone)
        end
    | VStop r => sret (inl r)
    | VStart sp => slet x := start_new_child sp in sret (inr (RpStart x))
    | VTerminate id => slet x := terminate_child_by_id id in sret (inr (RpTerminate x))
    | VRestart id => slet x := restart_child_by_id id in sret (inr (RpRestart x))
    | VDelete id => slet x := delete_child_by_id id in sret (inr (RpDelete x))
    | VCount => slet s := sget in sret (inr (RpCount (count_children s)))
    | VWhich => slet s := sget in sret (inr (RpWhich (which_children s)))
    end.

  (** The life of a supervisor: running, ended in an orderly way (after terminate, :882-884 and
      gen_server.rs), or dead by a panic. *)
  Inductive life := Running (w : sworld) | Ended (w : sworld) (r : exit_reason) | Panicking (w : sworld).
  Definition ends (w : sworld) (r : exit_reason) : life :=
    match terminate_children w with (w', Some _) => Ended w' r | (w', None) => Panicking w' end.
  Definition starts (s : sup) : life :=
    match init_children (SWorld s 0 [] []) with
    | (w, Some None) => Running w
    | (w, Some (Some r)) => Ended w r
    | (w, None) => Panicking w
    end.
  Definition step (w : sworld) (e : event) : life :=
    match handle e w with
    | (w', Some (inr _)) => Running w'
    | (w', Some (inl r)) => ends w' r
    | (w', None) => Panicking w'
    end.
  Fixpoint plays (l : life) (es : list event) : life :=
    match l, es with
    | Running w, e :: r => plays (step w e) r
    | _, _ => l
    end.
End supervisor.
