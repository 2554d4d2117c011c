(** Model of hydra-macros/src/entry.rs: what a function marked #[hydra::main] or #[hydra::test] does.  No proofs in this file. *)
From stdpp Require Import base list gmap numbers strings countable.
From Verif Require Import Prog Types World ProcApi.
(** entry.rs:19-23, 50-54 (start of the generated Application) after application.rs:83, 166 (set_flags), run by the application process
    [me]: the body becomes a process linked to it.  Its pid. *)
Definition macro_start (me : N) : prog world pid :=
  do! set_flags me true in
  let! x := spawn me true false in
  Ret (fst x).
