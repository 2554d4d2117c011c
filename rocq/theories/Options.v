(** Model of the option builders: node_options.rs, gen_server_options.rs, supervisor_options.rs,
    registry_options.rs, application_config.rs (without the tracing flags), child_spec.rs.  No proofs
    in this file.  Durations are milliseconds.  Not modelled: websocket_server_config.rs. *)
From stdpp Require Import base list gmap numbers strings countable.
From Verif Require Import Types.

(** node_options.rs:7-15. *)
Record node_options := NodeOptions {
  o_listen : sockaddr; o_broadcast : sockaddr; o_handshake : N; o_interval : N; o_timeout : N }.
(** node_options.rs:17-26 NodeOptions::new (and Default, :63-67): 127.0.0.1:1337, 5 s, 5 s, 45 s. *)
Definition new_node_options : node_options := NodeOptions (SA4 2130706433 1337) (SA4 2130706433 1337) 5000 5000 45000.
(** node_options.rs:29-60, the builder calls. *)
Inductive node_builder :=
| BListen (a : sockaddr) | BBroadcast (a : sockaddr) | BHandshake (d : N) | BInterval (d : N) | BHeartbeatTimeout (d : N).
Definition node_build (b : node_builder) (o : node_options) : node_options :=
  match b with
  | BListen a => NodeOptions a (o_broadcast o) (o_handshake o) (o_interval o) (o_timeout o)
  | BBroadcast a => NodeOptions (o_listen o) a (o_handshake o) (o_interval o) (o_timeout o)
  | BHandshake d => NodeOptions (o_listen o) (o_broadcast o) d (o_interval o) (o_timeout o)
  | BInterval d => NodeOptions (o_listen o) (o_broadcast o) (o_handshake o) d (o_timeout o)
  | BHeartbeatTimeout d => NodeOptions (o_listen o) (o_broadcast o) d (o_interval o) (o_timeout o)
  end.
Definition node_built (bs : list node_builder) : node_options := foldl (fun o b => node_build b o) new_node_options bs.

(** gen_server_options.rs:5-30; supervisor_options.rs:7-33 has the same fields and builders;
    registry_options.rs:5-21 only the name. *)
Record gs_options := GsOptions { g_name : option string; g_timeout : option N }.
Inductive gs_builder := BName (s : string) | BTimeout (d : N).
Definition gs_build (b : gs_builder) (o : gs_options) : gs_options :=
  match b with BName s => GsOptions (Some s) (g_timeout o) | BTimeout d => GsOptions (g_name o) (Some d) end.
Definition gs_new : gs_options := GsOptions None None.
Definition gs_built (bs : list gs_builder) : gs_options := foldl (fun o b => gs_build b o) gs_new bs.
(** supervisor_options.rs:35-49 From<SupervisorOptions> for GenServerOptions. *)
Definition from_supervisor (o : gs_options) : gs_options :=
  let p := gs_new in
  let p := match g_name o with Some s => gs_build (BName s) p | None => p end in
  match g_timeout o with Some d => gs_build (BTimeout d) p | None => p end.
(** registry_options.rs:23-33 From<RegistryOptions> for GenServerOptions; [name] is the only option. *)
Definition from_registry (name : option string) : gs_options :=
  match name with Some s => gs_build (BName s) gs_new | None => gs_new end.

(** application_config.rs:4-11, 66-78 (Default), 48-63. *)
Record app_config := AppConfig { a_graceful : bool; a_graceful_timeout : N }.
Definition app_default : app_config := AppConfig true 10000.
Inductive app_builder := BGraceful (b : bool) | BGracefulTimeout (d : N).
Definition app_build (b : app_builder) (o : app_config) : app_config :=
  match b with BGraceful v => AppConfig v (a_graceful_timeout o) | BGracefulTimeout d => AppConfig (a_graceful o) d end.
Definition app_built (bs : list app_builder) : app_config := foldl (fun o b => app_build b o) app_default bs.

(** child_spec.rs:22-51, 54-113; the start function is left out; a panic is None. *)
Inductive restart := Permanent | Temporary | Transient.
Inductive shutdown := BrutalKill | Millis (d : N) | Infinity.
Inductive child_type := Worker | Supervisor.
Record spec := Spec { s_id : string; s_restart : restart; s_shutdown : option shutdown; s_type : child_type; s_significant : bool }.
Definition spec_new (id : string) : spec := Spec id Permanent None Worker false.
Inductive spec_builder := BId (s : string) | BRestart (r : restart) | BShutdown (s : shutdown) | BType (t : child_type) | BSignificant (b : bool).
Definition spec_build (b : spec_builder) (s : spec) : option spec :=
  match b with
  | BId i => Some (Spec i (s_restart s) (s_shutdown s) (s_type s) (s_significant s))
  | BRestart r => Some (Spec (s_id s) r (s_shutdown s) (s_type s) (s_significant s))
  | BShutdown x => Some (Spec (s_id s) (s_restart s) (Some x) (s_type s) (s_significant s))
  | BType t => Some (Spec (s_id s) (s_restart s) (s_shutdown s) t (s_significant s))
  | BSignificant v =>
      if v && match s_restart s with Temporary | Transient => false | Permanent => true end then None
      else Some (Spec (s_id s) (s_restart s) (s_shutdown s) (s_type s) v)
  end.
Definition spec_built (id : string) (bs : list spec_builder) : option spec :=
  foldl (fun o b => o ≫= spec_build b) (Some (spec_new id)) bs.
