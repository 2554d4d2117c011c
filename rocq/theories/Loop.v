(** A process that receives every message with Process::receive (strict) and deals with it: the loops
    of application.rs:98-134 and 171-184.  No proofs in this file.

    [turn] is the body of the loop: what it asks of the rest of the node, in order, and whether the
    loop goes on.  [loops l0 arrived handled requests status l]: starting with mailbox [l0], [arrived]
    has arrived, [handled] has been received, [requests] has been asked for. *)
From stdpp Require Import base list gmap numbers strings countable.
From Verif Require Import Types Mailbox.

(** The loop goes on, has ended with a result, or has panicked. *)
Inductive lstatus (R : Type) := LServing | LDone (r : R) | LCrashed (s : string).
Global Arguments LServing {R}.
Global Arguments LDone {R} r.
Global Arguments LCrashed {R} s.

Section loop.
  Context {Q R : Type} (S : serde) (T : N) (turn : message -> list Q * lstatus R).
  (** process.rs:211-216 receive; process_receiver.rs:66, 101 for the panic. *)
  Inductive loops (l0 : plocal) : list item -> list message -> list Q -> lstatus R -> plocal -> Prop :=
  | loops_init : loops l0 [] [] [] LServing l0
  | loops_arrival arr ms qs s l x : loops l0 arr ms qs s l -> loops l0 (arr ++ [x]) ms qs s (set_chan (l_chan l ++ [x]) l)
  | loops_turn arr ms qs l m l1 : loops l0 arr ms qs LServing l -> receive S T true l = (Found m, l1) ->
      loops l0 arr (ms ++ [m]) (qs ++ fst (turn m)) (snd (turn m)) l1
  | loops_wait arr ms qs l l1 : loops l0 arr ms qs LServing l -> receive S T true l = (Waiting, l1) ->
      loops l0 arr ms qs LServing l1
  | loops_type_panic arr ms qs l l1 : loops l0 arr ms qs LServing l -> receive S T true l = (TypePanic, l1) ->
      loops l0 arr ms qs (LCrashed "Unsupported message type!") l1.
End loop.
