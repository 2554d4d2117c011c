(** Model of a process' mailbox: hydra/src/process_receiver.rs:11-241 and the fields of
    [Process] it works on (hydra/src/process.rs:69-82).  No proofs in this file.

    Filters are modelled as pure predicates on messages ([remove] accepts FnMut; a filter with
    state is not modelled). *)
From stdpp Require Import base list gmap numbers strings countable.
From Verif Require Import Types.

(** process.rs:69-82: the channel's contents (oldest first), the messages already popped from it,
    the active aliases and the installed monitors of one process. *)
Record plocal := PL {
  l_chan : list item;
  l_items : list item;
  l_aliases : gset N;
  l_monitors : gmap reference pmonitor;
}.
(** process.rs:91-100 Process::new. *)
Definition new_plocal : plocal := PL [] [] ∅ ∅.

Definition set_chan (c : list item) (l : plocal) : plocal := PL c (l_items l) (l_aliases l) (l_monitors l).
Definition set_items (i : list item) (l : plocal) : plocal := PL (l_chan l) i (l_aliases l) (l_monitors l).
Definition upd_aliases (f : gset N -> gset N) (l : plocal) : plocal :=
  PL (l_chan l) (l_items l) (f (l_aliases l)) (l_monitors l).
Definition upd_monitors (f : gmap reference pmonitor -> gmap reference pmonitor) (l : plocal) : plocal :=
  PL (l_chan l) (l_items l) (l_aliases l) (f (l_monitors l)).

Section mailbox.
  Context (S : serde).

  (** Result of process_item: Ok(Some(message)), Ok(None), Err(()). *)
  Inductive pres := PMsg (m : message) | PSkip | PErr.

  (** process_receiver.rs:175-241 process_item::<T>: result, the item as left in place, and the
      process state. *)
  Definition process_item (T : N) (x : item) (l : plocal) : pres * item * plocal :=
    let x := match x with
             | IUserRemote b => match de S T b with Some v => IUserLocal v | None => x end
             | _ => x
             end in
    match x with
    | IUserRemote _ => (PErr, x, l)
    | IUserLocal v => (if decide (v_type v = T) then PMsg (MUser v) else PErr, x, l)
    | ISystem m => (PMsg (MSystem m), x, l)
    | IProcessDown d r why =>
        match l_monitors l !! r with
        | None => (PSkip, x, l)
        | Some _ => (PMsg (MSystem (SProcessDown d r why)), ISystem (SProcessDown d r why),
                     upd_monitors (delete r) l)
        end
    | INodeDown n r =>
        match l_monitors l !! r with
        | None => (PSkip, x, l)
        | Some _ => (PMsg (MSystem (SNodeDown n r)), ISystem (SNodeDown n r), upd_monitors (delete r) l)
        end
    | IProcessUpdate r p =>
        (PSkip, x, upd_monitors (alter (fun _ => MForProcess (Some p)) r) l)
    | IAliasDeactivated i => (PSkip, x, upd_aliases (fun a => a ∖ {[ i ]}) l)
    end.

  (** Outcome of a receive operation that runs until it would have to wait. *)
  Inductive sel := Found (m : message) | Waiting | TypePanic.

  (** process_receiver.rs:45-75: the scan of the already popped messages.  Returns the new
      [items].  [strict] is [!ignore_type]. *)
  Fixpoint scan_items (T : N) (f : message -> bool) (strict : bool) (its : list item) (l : plocal)
    : sel * list item * plocal :=
    match its with
    | [] => (Waiting, [], l)
    | x :: its =>
        let '(r, x, l) := process_item T x l in
        match r with
        | PErr => if strict then (TypePanic, x :: its, l)
                  else let '(s, its, l) := scan_items T f strict its l in (s, x :: its, l)
        | PSkip => let '(s, its, l) := scan_items T f strict its l in (s, x :: its, l)
        | PMsg m => if f m then (Found m, its, l)
                    else let '(s, its, l) := scan_items T f strict its l in (s, x :: its, l)
        end
    end.

  (** process_receiver.rs:83-106: popping the channel until a message matches; what does not match
      is appended to [items].  Running out of input = waiting. *)
  Fixpoint scan_chan (T : N) (f : message -> bool) (strict : bool) (ch : list item) (l : plocal)
    : sel * plocal :=
    match ch with
    | [] => (Waiting, set_chan [] l)
    | x :: ch =>
        let '(r, x, l) := process_item T x l in
        match r with
        | PMsg m => if f m then (Found m, set_chan ch l)
                    else scan_chan T f strict ch (set_items (l_items l ++ [x]) l)
        | PSkip => scan_chan T f strict ch l
        | PErr => if strict then (TypePanic, set_chan ch l)
                  else scan_chan T f strict ch (set_items (l_items l ++ [x]) l)
        end
    end.

  (** process_receiver.rs:44-107 select, up to the point where it returns, panics or waits for the
      channel. *)
  Definition select (T : N) (f : message -> bool) (strict : bool) (l : plocal) : sel * plocal :=
    match scan_items T f strict (l_items l) l with
    | (Waiting, its, l) => scan_chan T f strict (l_chan l) (set_items its l)
    | (s, its, l) => (s, set_items its l)
    end.
  (** A waiting select is resumed when something arrives (lines 83-106 again). *)
  Definition resume (T : N) (f : message -> bool) (strict : bool) (l : plocal) : sel * plocal :=
    scan_chan T f strict (l_chan l) l.
  (** process_receiver.rs:150-152. *)
  Definition receive (T : N) (strict : bool) (l : plocal) : sel * plocal := select T (fun _ => true) strict l.

  (** process_receiver.rs:114-124: retain_mut; None = panic. *)
  Fixpoint retain_items (T : N) (f : message -> bool) (strict : bool) (its : list item) (l : plocal)
    : option (list item * plocal) :=
    match its with
    | [] => Some ([], l)
    | x :: its =>
        let '(r, x, l) := process_item T x l in
        match r with
        | PErr => if strict then None
                  else '(its, l) ← retain_items T f strict its l; Some (x :: its, l)
        | PSkip => '(its, l) ← retain_items T f strict its l; Some (x :: its, l)
        | PMsg m => '(its, l) ← retain_items T f strict its l; Some (if f m then its else x :: its, l)
        end
    end.
  (** process_receiver.rs:129-146: draining what is in the channel. *)
  Fixpoint drain_chan (T : N) (f : message -> bool) (strict : bool) (ch : list item) (l : plocal)
    : option plocal :=
    match ch with
    | [] => Some (set_chan [] l)
    | x :: ch =>
        let '(r, x, l) := process_item T x l in
        match r with
        | PMsg m => drain_chan T f strict ch (if f m then l else set_items (l_items l ++ [x]) l)
        | PSkip => drain_chan T f strict ch l
        | PErr => if strict then None else drain_chan T f strict ch (set_items (l_items l ++ [x]) l)
        end
    end.
  (** process_receiver.rs:110-147 remove; None = panic. *)
  Definition remove (T : N) (f : message -> bool) (strict : bool) (l : plocal) : option plocal :=
    '(its, l) ← retain_items T f strict (l_items l) l;
    drain_chan T f strict (l_chan l) (set_items its l).
End mailbox.
