(** Specification vocabulary for registries (C46-C50, C71, C72). *)
From stdpp Require Import base list gmap numbers strings sets.
From Coq Require Import ZArith.
From Verif Require Import Types Super Registry.

(** The process registered under [k] in the registry [name] (what Registry::lookup returns). *)
Definition entry (w : rworld) (name : string) (k : rkey) : option pid :=
  match t_tables w !! name with Some t => t !! k | None => None end.
(** [srv] is the running registry process [g]; clients reach it by its name. *)
Definition serves (w : rworld) (srv : pid) (g : reg) : Prop := t_regs w !! srv = Some g.
Definition reachable (w : rworld) (srv : pid) (g : reg) : Prop := t_regs w !! srv = Some g /\ t_names w !! g_name g = Some srv.

(** No entry differs, except the one of [name] and [k], which is now [x]. *)
Definition only_entry (w w' : rworld) (name : string) (k : rkey) (x : option pid) : Prop :=
  entry w' name k = x /\ (forall name' k', (name', k') <> (name, k) -> entry w' name' k' = entry w name' k').
Definition no_entry_changed (w w' : rworld) : Prop := forall name k, entry w' name k = entry w name k.
(** [w'] has these more effects than [w]. *)
Definition did (w w' : rworld) (l : list reg_effect) : Prop := t_log w' = t_log w ++ l.

(** The reasons for which an entry ([name], [k], [p]) can be removed by an event. *)
Inductive removal (w : rworld) (name : string) (k : rkey) (p : pid) : revent -> Prop :=
| removal_exit srv g : serves w srv g -> g_name g = name -> g_lookup g !! p = Some k -> removal w name k p (QExit srv p)
| removal_stop srv g : serves w srv g -> g_name g = name -> removal w name k p (QCall srv (CStop k))
| removal_remove srv g : serves w srv g -> g_name g = name -> removal w name k p (QCall srv (CRemove k))
| removal_local : removal w name k p (QRemove name k)
| removal_end srv g : serves w srv g -> g_name g = name -> removal w name k p (QEnd srv)
| removal_kill srv g : serves w srv g -> g_name g = name -> removal w name k p (QKill srv)
(* the registry panics: asked to start a process without having a start routine *)
| removal_panic srv g k' m : serves w srv g -> g_name g = name -> g_start g = false -> m = CStart k' \/ m = CLookupOrStart k' ->
    entry w name k' = None -> removal w name k p (QCall srv m)
(* another registry of that name could not be started because its process name was taken *)
| removal_duplicate srv start sh opt q : t_names w !! default name opt = Some q -> removal w name k p (QStart srv name start sh opt).

(** Histories in which every registry keeps its own name as process name (no other name is given in the options), and
    processes are new. *)
Definition starts_as (e : revent) : option pid := match e with QStart srv _ _ _ _ => Some srv | _ => None end.
Definition own_name (e : revent) : Prop := match e with QStart _ _ _ _ opt => opt = None | _ => True end.
Definition proper_history (es : list revent) : Prop := NoDup (omap starts_as es) /\ Forall own_name es.
(** The start routines never return the same process twice. *)
Definition new_processes (answers : nat -> answer) : Prop := forall i j p, answers i = Up p -> answers j = Up p -> i = j.

(** None of the events [es], from [w] on, removes the entry. *)
Fixpoint kept (answers : nat -> answer) (w : rworld) (name : string) (k : rkey) (p : pid) (es : list revent) : Prop :=
  match es with
  | [] => True
  | e :: es => ~ removal w name k p e /\ kept answers (rstep answers w e) name k p es
  end.
(** The registry an event is about. *)
Definition about (w : rworld) (e : revent) : option string :=
  match e with
  | QStart _ name _ _ _ | QRemove name _ | QLookup name _ => Some name
  | QCall srv _ | QCast srv _ | QExit srv _ | QEnd srv | QKill srv => option_map g_name (t_regs w !! srv)
  end.
