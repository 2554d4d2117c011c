(** Property theorems C63 and C73: the option builders. *)
From stdpp Require Import base list gmap numbers strings countable.
From Verif Require Import Types Options.

(** The last element of [l] selected by [f], or [d]. *)
Definition last_of {A B} (f : A -> option B) (d : B) (l : list A) : B := default d (list.last (omap f l)).
Lemma last_of_snoc {A B} (f : A -> option B) d l x : last_of f d (l ++ [x]) = default (last_of f d l) (f x).
Proof. unfold last_of. rewrite omap_app. cbn. destruct (f x); cbn; [by rewrite last_snoc|by rewrite app_nil_r]. Qed.

(** What each builder is named after. *)
Definition listen_set (b : node_builder) : option sockaddr := match b with BListen a => Some a | _ => None end.
Definition broadcast_set (b : node_builder) : option sockaddr := match b with BBroadcast a => Some a | _ => None end.
Definition handshake_set (b : node_builder) : option N := match b with BHandshake d => Some d | _ => None end.
Definition interval_set (b : node_builder) : option N := match b with BInterval d => Some d | _ => None end.
Definition timeout_set (b : node_builder) : option N := match b with BHeartbeatTimeout d => Some d | _ => None end.

(** Whatever builders are called in whatever order, every option has the value given last by its own
    builder, or the documented default. *)
Definition C63_statement : Prop := forall bs, let o := node_built bs in
  o_listen o = last_of listen_set (SA4 2130706433 1337) bs /\ o_broadcast o = last_of broadcast_set (SA4 2130706433 1337) bs /\
  o_handshake o = last_of handshake_set 5000%N bs /\ o_interval o = last_of interval_set 5000%N bs /\
  o_timeout o = last_of timeout_set 45000%N bs.
(** Violated by the code: heartbeat_timeout sets the handshake timeout, and nothing sets the heartbeat
    timeout. *)
Theorem C63_refuted : ~ C63_statement.
Proof. intros H. destruct (H [BHeartbeatTimeout 7000]) as (_ & _ & Hh & _). discriminate. Qed.
Print Assumptions C63_refuted.
(** What holds: the other options; the handshake timeout has the last value given to it or to
    heartbeat_timeout; the heartbeat timeout is always 45 s. *)
Theorem C63_partial : forall bs, let o := node_built bs in
  o_listen o = last_of listen_set (SA4 2130706433 1337) bs /\ o_broadcast o = last_of broadcast_set (SA4 2130706433 1337) bs /\
  o_handshake o = last_of (fun b => match handshake_set b with Some d => Some d | None => timeout_set b end) 5000%N bs /\
  o_interval o = last_of interval_set 5000%N bs /\ o_timeout o = 45000%N.
Proof.
  intros bs; cbn zeta. induction bs as [|b bs IH] using rev_ind; [done|]. unfold node_built in *. rewrite foldl_snoc. cbn zeta.
  rewrite !last_of_snoc. destruct IH as (I1 & I2 & I3 & I4 & I5). destruct b; cbn; auto.
Qed.
Print Assumptions C63_partial.
Example C63_example : let o := node_built [BHandshake 1; BListen (SA4 1 2); BHandshake 9; BInterval 4] in
  o_handshake o = 9%N /\ o_listen o = SA4 1 2 /\ o_interval o = 4%N /\ o_timeout o = 45000%N.
Proof. done. Qed.

(** The other builders: each sets its own option, and the conversions to GenServerOptions keep every
    option. *)
Definition name_set (b : gs_builder) : option (option string) := match b with BName s => Some (Some s) | _ => None end.
Definition init_timeout_set (b : gs_builder) : option (option N) := match b with BTimeout d => Some (Some d) | _ => None end.
Definition graceful_set (b : app_builder) : option bool := match b with BGraceful v => Some v | _ => None end.
Definition graceful_timeout_set (b : app_builder) : option N := match b with BGracefulTimeout d => Some d | _ => None end.
Theorem C63_server_options : forall bs, let o := gs_built bs in
  g_name o = last_of name_set None bs /\ g_timeout o = last_of init_timeout_set None bs /\
  from_supervisor o = o /\ from_registry (g_name o) = GsOptions (g_name o) None.
Proof.
  intros bs; cbn zeta. assert (forall o, from_supervisor o = o) as Hs by (by intros [[] []]).
  assert (forall n, from_registry n = GsOptions n None) as Hr by (by intros []). split_and!; auto.
  - induction bs as [|b bs IH] using rev_ind; [done|]. unfold gs_built in *. rewrite foldl_snoc, last_of_snoc. by destruct b; cbn.
  - induction bs as [|b bs IH] using rev_ind; [done|]. unfold gs_built in *. rewrite foldl_snoc, last_of_snoc. by destruct b; cbn.
Qed.
Print Assumptions C63_server_options.
Theorem C63_application_config : forall bs, let o := app_built bs in
  a_graceful o = last_of graceful_set true bs /\ a_graceful_timeout o = last_of graceful_timeout_set 10000%N bs.
Proof.
  intros bs; cbn zeta. split; (induction bs as [|b bs IH] using rev_ind; [done|]); unfold app_built in *; rewrite foldl_snoc, last_of_snoc; by destruct b; cbn.
Qed.
Print Assumptions C63_application_config.
Example C63_server_example : gs_built [BName "a"; BTimeout 5; BName "b"] = GsOptions (Some "b"%string) (Some 5%N).
Proof. done. Qed.

(** ** C73: ChildSpec. *)
Definition id_set (b : spec_builder) := match b with BId s => Some s | _ => None end.
Definition restart_set (b : spec_builder) := match b with BRestart r => Some r | _ => None end.
Definition shutdown_set (b : spec_builder) := match b with BShutdown s => Some (Some s) | _ => None end.
Definition type_set (b : spec_builder) := match b with BType t => Some t | _ => None end.
Definition significant_set (b : spec_builder) := match b with BSignificant v => Some v | _ => None end.
(** A specification that can be built has, for every attribute, the value given last or the default. *)
Theorem C73_attributes : forall id bs s, spec_built id bs = Some s ->
  s_id s = last_of id_set id bs /\ s_restart s = last_of restart_set Permanent bs /\ s_shutdown s = last_of shutdown_set None bs /\
  s_type s = last_of type_set Worker bs /\ s_significant s = last_of significant_set false bs.
Proof.
  intros id bs. induction bs as [|b bs IH] using rev_ind; intros s; [intros [= <-]; done|]. unfold spec_built in *. rewrite foldl_snoc.
  destruct (foldl _ _ bs) as [s0|]; [|discriminate]. destruct (IH s0 eq_refl) as (I1 & I2 & I3 & I4 & I5). rewrite !last_of_snoc.
  destruct b; cbn; try (intros [= <-]; cbn; by auto). destruct (b && _) eqn:E; [discriminate|]. intros [= <-]; cbn; auto.
Qed.
Print Assumptions C73_attributes.
(** A permanent child cannot be marked significant ... *)
Definition C73_statement : Prop := forall id bs s, spec_built id bs = Some s -> ~ (s_significant s = true /\ s_restart s = Permanent).
(** ... violated by the code: the check depends on the order of the builder calls. *)
Theorem C73_refuted : ~ C73_statement.
Proof.
  intros H. apply (H "a"%string [BRestart Transient; BSignificant true; BRestart Permanent] _ eq_refl). done.
Qed.
Print Assumptions C73_refuted.
(** It holds if restart is not called after significant(true). *)
Theorem C73_partial : forall id bs s, spec_built id bs = Some s ->
  (forall a b r, bs = a ++ BSignificant true :: b -> BRestart r ∉ b) ->
  ~ (s_significant s = true /\ s_restart s = Permanent).
Proof.
  intros id bs. induction bs as [|b bs IH] using rev_ind; intros s; [intros [= <-] _ [? _]; discriminate|].
  intros H Ho. pose proof (C73_attributes _ _ _ H) as (_ & _ & _ & _ & Hsig). unfold spec_built in *. rewrite foldl_snoc in H.
  destruct (foldl _ _ bs) as [s0|] eqn:E0; [|discriminate].
  assert (forall a c r, bs = a ++ BSignificant true :: c -> BRestart r ∉ c) as Ho'.
  { intros a c r ->. specialize (Ho a (c ++ [b]) r). rewrite <- app_assoc in Ho. specialize (Ho eq_refl). set_solver. }
  specialize (IH s0 eq_refl Ho'). destruct b; cbn in H; try (injection H as <-; cbn; exact IH).
  - intros [Hs _]. rewrite Hs in Hsig. symmetry in Hsig. unfold last_of in Hsig. rewrite omap_app in Hsig. cbn in Hsig. rewrite app_nil_r in Hsig.
    assert (exists a c, bs = a ++ BSignificant true :: c) as (a & c & ->).
    { clear -Hsig. induction bs as [|x bs IH] using rev_ind; [discriminate|]. rewrite omap_app in Hsig. cbn in Hsig.
      destruct x; cbn in Hsig; try (rewrite app_nil_r in Hsig; destruct (IH Hsig) as (a & c & ->); eexists a, (c ++ [_]); by rewrite <- app_assoc).
      rewrite last_snoc in Hsig. cbn in Hsig. subst. by exists bs, []. }
    apply (Ho a (c ++ [BRestart r]) r); [by rewrite <- app_assoc|]. set_solver.
  - destruct (b && _) eqn:E; [discriminate|]. injection H as <-. cbn. intros [-> Hr]. rewrite Hr in E. discriminate.
Qed.
Print Assumptions C73_partial.
Example C73_example : spec_built "a" [BRestart Transient; BSignificant true; BShutdown Infinity] = Some (Spec "a" Transient (Some Infinity) Worker true) /\
  spec_built "a" [BSignificant true] = None.
Proof. done. Qed.
