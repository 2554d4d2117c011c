(** Programs of atomic steps over a shared world, and their interleavings.

    This is the concurrency vocabulary of the model, not a model of a particular
    file of /repo.  An API call of hydra is a program: a tree whose nodes are the
    atomic operations it performs on shared state (one DashMap / atomic / channel
    operation, or one lock-protected section), whose continuation depends on what
    the step observed.  Panics are an explicit outcome. *)
From stdpp Require Import base list strings relations.

Inductive prog (W R : Type) : Type :=
| Ret (r : R)                                   (* the call returned [r] *)
| Panic (msg : string)                          (* the call panicked *)
| Atom (g : W -> bool) (f : W -> W) (k : W -> prog W R).
    (* wait until [g w]; then, atomically, the world becomes [f w] and the call
       goes on with [k w] (what it observed in the world before the step) *)
Global Arguments Ret {W R} r.
Global Arguments Panic {W R} msg.
Global Arguments Atom {W R} g f k.

(** Sequencing. *)
Fixpoint bind {W A B} (p : prog W A) (q : A -> prog W B) : prog W B :=
  match p with
  | Ret a => q a
  | Panic m => Panic m
  | Atom g f k => Atom g f (fun w => bind (k w) q)
  end.

Declare Scope prog_scope.
Delimit Scope prog_scope with prog.
Notation "'let!' x ':=' p 'in' q" := (bind p (fun x => q))
  (at level 200, x name, p at level 100, q at level 200, right associativity) : prog_scope.
Notation "'do!' p 'in' q" := (bind p (fun _ => q))
  (at level 200, p at level 100, q at level 200, right associativity) : prog_scope.
Open Scope prog_scope.

(** One unguarded atomic operation. *)
Definition atom {W A} (op : W -> W * A) : prog W A :=
  Atom (fun _ => true) (fun w => fst (op w)) (fun w => Ret (snd (op w))).
(** One atomic operation that waits for its guard (lock acquisition). *)
Definition await {W} (g : W -> bool) (f : W -> W) : prog W unit :=
  Atom g f (fun _ => Ret tt).
(** Atomic update / atomic observation. *)
Definition modify {W} (f : W -> W) : prog W unit := atom (fun w => (f w, tt)).
Definition observe {W A} (f : W -> A) : prog W A := atom (fun w => (w, f w)).

(** A loop over a list. *)
Fixpoint each {W A} (l : list A) (body : A -> prog W unit) : prog W unit :=
  match l with
  | [] => Ret tt
  | x :: l => bind (body x) (fun _ => each l body)
  end.

(** Outcome of running a call alone, without interleaving. *)
Inductive outcome (W R : Type) : Type :=
| Done (w : W) (r : R)
| Panicked (w : W) (msg : string)
| Blocked (w : W).                       (* waits for a lock nobody releases *)
Global Arguments Done {W R} w r.
Global Arguments Panicked {W R} w msg.
Global Arguments Blocked {W R} w.

Fixpoint run {W R} (p : prog W R) (w : W) : outcome W R :=
  match p with
  | Ret r => Done w r
  | Panic m => Panicked w m
  | Atom g f k => if g w then run (k w) (f w) else Blocked w
  end.

(** The state after running a call alone (whatever its outcome). *)
Definition out_world {W R} (o : outcome W R) : W :=
  match o with Done w _ => w | Panicked w _ => w | Blocked w => w end.

(** A system: the shared world and the calls in progress.  Which call makes the
    next step is entirely up to the scheduler. *)
Record sys (W R : Type) := Sys { s_world : W; s_threads : list (prog W R) }.
Global Arguments Sys {W R} s_world s_threads.
Global Arguments s_world {W R} s.
Global Arguments s_threads {W R} s.

(** One scheduler decision: thread [i] makes its next atomic step. *)
Definition tick {W R} (i : nat) (s : sys W R) : option (sys W R) :=
  match s_threads s !! i with
  | Some (Atom g f k) =>
      if g (s_world s)
      then Some (Sys (f (s_world s)) (<[i := k (s_world s)]> (s_threads s)))
      else None
  | _ => None
  end.

(** Every interleaving: any sequence of scheduler decisions; new calls may begin at
    any time if [api] allows them. *)
Inductive sys_step {W R} (api : prog W R -> Prop) : sys W R -> sys W R -> Prop :=
| step_tick i s s' : tick i s = Some s' -> sys_step api s s'
| step_call p s : api p -> sys_step api s (Sys (s_world s) (s_threads s ++ [p])).

Definition reach {W R} (api : prog W R -> Prop) : sys W R -> sys W R -> Prop :=
  rtc (sys_step api).

(** Executable schedules, used to exhibit concrete interleavings. *)
Fixpoint exec {W R} (sched : list nat) (s : sys W R) : option (sys W R) :=
  match sched with
  | [] => Some s
  | i :: sched => match tick i s with Some s' => exec sched s' | None => None end
  end.

(** [safe Inv p]: started in any world satisfying [Inv], [p]'s next step preserves
    [Inv], and so does every step after that, whatever other threads that also
    preserve [Inv] do in between. *)
Fixpoint safe {W R} (Inv : W -> Prop) (p : prog W R) : Prop :=
  match p with
  | Ret _ | Panic _ => True
  | Atom g f k => forall w, Inv w -> g w = true -> Inv (f w) /\ safe Inv (k w)
  end.

(** All results are in. *)
Definition results {W R} (s : sys W R) (rs : list R) : Prop :=
  s_threads s = map Ret rs.
