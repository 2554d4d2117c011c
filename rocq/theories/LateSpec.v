(** Specification vocabulary for the last part of C61: runs of a client in which only some calls are made. *)
From stdpp Require Import base list gmap numbers strings.
From Verif Require Import Prog Types Mailbox World ProcApi NodeApi Api Client.

Section late.
  Context (S : serde) (me : N) (ok : call -> Prop).
  (** In this step nobody begins a call that is not [ok]. *)
  Definition only_ok {R} (X Y : sys world val * cstate R) : Prop :=
    (forall c k, snd X = At (SCall c k) -> ok c) /\
    (length (s_threads (fst Y)) = length (s_threads (fst X)) \/
     exists c, ok c /\ s_threads (fst Y) = s_threads (fst X) ++ [call_prog S c]).
  (** A run of the client in which nobody begins a call that is not [ok]. *)
  Inductive cruns_ok {R} : sys world val * cstate R -> list deed -> sys world val * cstate R -> Prop :=
  | cruns_ok_nil x : cruns_ok x [] x
  | cruns_ok_cons x a y tr z : cstep S me x a y -> only_ok x y -> cruns_ok y tr z -> cruns_ok x (a ++ tr) z.
  (** [me] is between two calls, in a node in which nobody has ever begun a call that is not [ok]. *)
  Definition idle_ok (s : sys world val) : Prop :=
    exists R (sc sc' : script R) tr, cruns_ok (Sys world0 [], At sc) tr (s, At sc').
End late.
(** The process received an exit signal of process [p]. *)
Definition got_exit (p : pid) (x : deed) : Prop := exists why, x = Got (MSystem (SExit p why)).
