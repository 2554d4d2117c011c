(** Model of hydra/src/semaphore.rs: Semaphore and OwnedSemaphore, thin wrappers around
    tokio::sync::Semaphore.  No proofs in this file.

    The tokio semaphore is modelled from its documented behaviour (a fair semaphore whose operations
    are atomic: permits are handed to waiters in the order in which they began to wait; an acquire_many
    that waits collects permits as they come).  A request is identified by a number; a request that has
    what it needs counts as granted from that moment on (its future returns at its next poll), and
    dropping such a future is the same as dropping the permit.  Not modelled: closing (hydra never
    closes), tokio's panic above MAX_PERMITS. *)
From stdpp Require Import base list gmap numbers strings countable.

(** A waiting request: what it still needs and what it has been given so far. *)
Record waiter := Waiter { q_id : N; q_needs : nat; q_has : nat }.
(** The state of a semaphore: permits available; waiting requests, oldest first; permits handed out. *)
Record sem := Sem { s_avail : nat; s_queue : list waiter; s_granted : gmap N nat }.
(** semaphore.rs:43-47, 92-96 new. *)
Definition sem_new (permits : nat) : sem := Sem permits [] ∅.

(** The permits given back are handed to the waiting requests in order; the rest becomes available. *)
Fixpoint hand_out (n : nat) (q : list waiter) (g : gmap N nat) : nat * list waiter * gmap N nat :=
  match q with
  | [] => (n, [], g)
  | x :: q =>
      if decide (q_needs x <= n) then hand_out (n - q_needs x) q (<[q_id x := q_needs x + q_has x]> g)
      else (0, Waiter (q_id x) (q_needs x - n) (q_has x + n) :: q, g)
  end.
Definition give_back (n : nat) (s : sem) : sem :=
  let '(a, q, g) := hand_out n (s_queue s) (s_granted s) in Sem (s_avail s + a) q g.

(** The calls, [id] being new for the first two. *)
Inductive sem_call :=
| SAcquire (id : N) (n : nat)  (* semaphore.rs:50-64, 99-136 acquire, acquire_many and the owned ones: the first poll *)
| STryAcquire (id : N)  (* :67-72, 139-156 try_acquire, try_acquire_owned *)
| SDrop (id : N)  (* the permit, or the future of a request that has been granted, is dropped *)
| SCancel (id : N).  (* the future of a waiting request is dropped *)
(** None: NoPermits. *)
Definition sem_step (c : sem_call) (s : sem) : option sem :=
  match c with
  | SAcquire id n =>
      if decide (n <= s_avail s) then Some (Sem (s_avail s - n) (s_queue s) (<[id := n]> (s_granted s)))
      else Some (Sem 0 (s_queue s ++ [Waiter id (n - s_avail s) (s_avail s)]) (s_granted s))
  | STryAcquire id =>
      if decide (1 <= s_avail s) then Some (Sem (s_avail s - 1) (s_queue s) (<[id := 1]> (s_granted s))) else None
  | SDrop id =>
      match s_granted s !! id with
      | Some n => Some (give_back n (Sem (s_avail s) (s_queue s) (delete id (s_granted s))))
      | None => Some s
      end
  | SCancel id =>
      Some (give_back (sum_list (map q_has (filter (fun x => q_id x = id) (s_queue s))))
              (Sem (s_avail s) (filter (fun x => q_id x <> id) (s_queue s)) (s_granted s)))
  end.
(** A history: a refused try_acquire changes nothing. *)
Definition sem_run (cs : list sem_call) (s : sem) : sem := foldl (fun s c => default s (sem_step c s)) s cs.
