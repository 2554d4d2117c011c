(** Model of dest.rs (conversions and comparisons), catch_unwind.rs with the wrapper of
    spawn_internal, and task.rs (await_many, shutdown).  No proofs in this file. *)
From stdpp Require Import base list gmap numbers strings countable.
From Verif Require Import Prog Types World ProcApi.

(** ** dest.rs:50-91: From<_> for Dest. *)
Inductive dest_source :=
| OfPid (p : pid)  (* :50-54 *)
| OfStr (s : string)  (* :56-60 &'static str *)
| OfString (s : string)  (* :62-66 *)
| OfNamed (s : string) (n : node)  (* :68-84 (String, T) and (&'static str, T), T : Into<Node> *)
| OfReference (r : reference).  (* :86-90 *)
Definition dest_from (x : dest_source) : dest :=
  match x with
  | OfPid p => DPid p
  | OfStr s | OfString s => DNamed s NLocal
  | OfNamed s n => DNamed s n
  | OfReference r => DAlias r
  end.
(** ** dest.rs:148-245: From<_> for Dests and FromIterator. *)
Inductive dests_source :=
| FromOne (x : dest_source)  (* :148-189 Pid, Reference, &str, (String, T), (&str, T), String *)
| FromDest (d : dest)  (* :201-205 *)
| FromPidSlice (l : list pid)  (* :191-199 &[Pid] *)
| FromDestSlice (l : list dest)  (* :207-215 &[Dest] *)
| FromDestVec (l : list dest)  (* :217-221 Vec<Dest>; :235-239 FromIterator<Dest> *)
| FromPidVec (l : list pid).  (* :223-233 Vec<Pid>, &Vec<Pid>; :241-245 FromIterator<Pid> *)
Definition dests_from (x : dests_source) : dests :=
  match x with
  | FromOne x => DsOne (dest_from x)
  | FromDest d => DsOne d
  | FromPidSlice [p] => DsOne (DPid p)
  | FromPidSlice l => DsMany (map DPid l)
  | FromDestSlice [d] => DsOne d
  | FromDestSlice l => DsMany l
  | FromDestVec l => DsMany l
  | FromPidVec l => DsMany (map DPid l)
  end.

(** ** dest.rs:92-146: PartialEq between Dest and Pid, &str, Reference. *)
Definition dest_eq_pid (d : dest) (p : pid) : bool := match d with DPid q => bool_decide (q = p) | _ => false end.
Definition pid_eq_dest (p : pid) (d : dest) : bool := match d with DPid q => bool_decide (p = q) | _ => false end.
Definition dest_eq_str (d : dest) (s : string) : bool := match d with DNamed t _ => bool_decide (t = s) | _ => false end.
Definition str_eq_dest (s : string) (d : dest) : bool := match d with DNamed t _ => bool_decide (s = t) | _ => false end.
Definition dest_eq_ref (d : dest) (r : reference) : bool := match d with DAlias q => bool_decide (q = r) | _ => false end.
(** :139-146 PartialEq<Dest> for Reference: in the Alias case it evaluates [reference == other] with
    [other : &Dest], that is, this very function on the alias' reference and the same Dest.  The
    evaluation with [fuel] nested calls; None: not finished. *)
Fixpoint ref_eq_dest (fuel : nat) (r : reference) (d : dest) : option bool :=
  match fuel with
  | 0 => None
  | S fuel => match d with DAlias q => ref_eq_dest fuel q d | _ => Some false end
  end.

(** ** catch_unwind.rs:38-51: the text of a panic payload. *)
Inductive payload := PayString (s : string) | PayStr (s : string) | PayOther.
Definition panic_text (p : payload) : string :=
  match p with PayString s | PayStr s => s | PayOther => "Unknown error!" end.
(** How the future of a process ends: it returns, it panics, or it is dropped by an abort. *)
Inductive ending := Returns | Panics (p : payload) | IsAborted.
(** process.rs:485-489: AsyncCatchUnwind's Err sets the exit reason; then the Process object in the
    task-local scope is dropped. *)
Definition ends (i : N) (e : ending) : prog world unit :=
  match e with
  | Returns | IsAborted => drop_process i
  | Panics p => crash i (RCustom (panic_text p))
  end.

(** ** task.rs.  A task that has finished has a result or an error text (it panicked or was aborted). *)
Section tasks.
  Context {R : Type}.
  Definition outcome : Type := R + string.
  (** task.rs:80-99 await_many: one poll, [acc] being the results so far and [rest] the handles not yet
      awaited, with what they show now.  inl: still waiting, with the new state. *)
  Fixpoint poll_many (acc : list R) (rest : list (option outcome)) : (list R * nat) + (list R + string) :=
    match rest with
    | [] => inr (inl acc)
    | None :: _ => inl (acc, length acc)
    | Some (inl a) :: rest => poll_many (acc ++ [a]) rest
    | Some (inr e) :: _ => inr (inr e)
    end.
  (** The polls of one await_many on [n] tasks: [shows] is the sequence of what the tasks show at each
      poll.  The number in the state is how many handles have been consumed. *)
  Fixpoint await_many (acc : list R) (consumed : nat) (shows : list (list (option outcome))) : option (list R + string) :=
    match shows with
    | [] => None
    | now :: later => match poll_many acc (drop consumed now) with
                      | inr r => Some r
                      | inl (acc, consumed) => await_many acc consumed later
                      end
    end.
  (** task.rs:70-77 shutdown: abort, then await.  [finished]: what the task shows at the abort;
      tokio's abort has no effect on a finished task. *)
  Definition task_shutdown (finished : option outcome) (cancelled : string) : outcome :=
    match finished with Some o => o | None => inr cancelled end.
End tasks.
Global Arguments outcome : clear implicits.
