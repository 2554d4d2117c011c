(** Every atomic step any API call ever makes, as one relation, and the proof that there are no
    others.  Schedule-wide statements are proved by looking at these steps one by one. *)
From stdpp Require Import base list gmap numbers strings countable sorting.
From Verif Require Import Prog ProgProofs ProgInv Types Mailbox World ProcApi NodeApi Api.

Definition kill_task (t : task) : task := Task (t_due t) (t_dests t) (t_val t) false.
Definition unname (r : registration) : registration := Reg None (r_trap r) (r_exit r) (r_abort r).

(** What a call may do: put user items satisfying [U] into mailboxes; deal in monitors and their
    down notices if [M]; create aliases if [A]; record monitors in the caller's own table if [O]. *)
Definition allowed (U : item -> Prop) (M : Prop) (x : item) : Prop :=
  match x with
  | IUserRemote _ | IUserLocal _ => U x
  | IProcessDown _ _ _ | INodeDown _ _ => M
  | ISystem (SProcessDown _ _ _) | ISystem (SNodeDown _ _) => False
  | _ => True
  end.

Section steps.
  Context (S : serde) (U : item -> Prop) (M A O : Prop).
  Inductive step1 : world -> world -> Prop :=
  | st_none w : step1 w w
  | st_fresh_ref w : step1 w (up_next_ref N.succ w)
  | st_own_alias me r w : step1 w (up_loc (alter (upd_aliases (fun a => {[ref_id r]} ∪ a)) me) w)
  | st_own_unalias me r w : step1 w (up_loc (alter (upd_aliases (fun a => a ∖ {[ref_id r]})) me) w)
  | st_own_monitor me r m w : O -> step1 w (up_loc (alter (upd_monitors (<[r := m]>)) me) w)
  | st_own_demonitor me r w : step1 w (up_loc (alter (upd_monitors (delete r)) me) w)
  | st_receive me T f b w : step1 w (fst (receive_op S me T f b w))
  | st_alias_create o r b w : A -> step1 w (alias_create_op o r b w)
  | st_alias_delete i w : step1 w (up_aliases (delete i) w)
  | st_alias_take r w : step1 w (fst (alias_take_op r w))
  | st_push i x w : allowed U M x -> step1 w (push i x w)
  | st_send_to i x w : allowed U M x -> step1 w (send_to i x w)
  | st_node_register n a c w : step1 w (fst (node_register_op n a c w))
  | st_send_frame f i w : step1 w (send_frame f i w)
  | st_task_add i t w : U (IUserLocal (t_val t)) -> U (IUserRemote (ser S (t_val t))) -> step1 w (up_tasks (<[i := t]>) w)
  | st_task_kill i w : step1 w (up_tasks (alter kill_task i) w)
  | st_timer_add i t w : step1 w (up_timers (<[i := t]>) w)
  | st_timer_delete i w : step1 w (up_timers (delete i) w)
  | st_tick w : step1 w (up_now N.succ w)
  | st_alloc w : step1 w (up_loc (<[w_next_pid w := new_plocal]>) (up_next_pid N.succ w))
  | st_running i w : step1 w (up_running (fun s => {[i]} ∪ s) w)
  | st_insert i w : step1 w (up_regs (<[i := new_reg]>) w)
  | st_register p n w : step1 w (fst (register_op p n w))
  | st_name_delete n w : step1 w (up_names (delete n) w)
  | st_unname i w : step1 w (up_regs (alter unname i) w)
  | st_set_flags i b w : step1 w (set_flags_op i b w)
  | st_set_exit i r w : step1 w (set_exit_op i r w)
  | st_exit p f r w : step1 w (exit_op p f r w)
  | st_exit_linked p f r w : step1 w (exit_linked_op p f r w)
  | st_reg_delete i w : step1 w (up_regs (delete i) w)
  | st_gone i w : step1 w (gone i w)
  | st_add_link i p w : step1 w (add_link i p w)
  | st_del_link i p w : step1 w (del_link i p w)
  | st_links_delete i w : step1 w (up_links (delete i) w)
  | st_add_mon i r p d w : M -> (pid_is_local p = true -> is_Some d) -> step1 w (add_mon i r p d w)
  | st_del_mon i r w : step1 w (del_mon i r w)
  | st_mons_delete i w : step1 w (up_mons (delete i) w)
  | st_add_nlink n p i w : pid_is_local p = false -> step1 w (add_nlink n p i w)
  | st_del_nlinks n l w : step1 w (del_nlinks n l w)
  | st_nlinks_delete n w : step1 w (up_nlinks (delete n) w)
  | st_add_nmon n r m w : M -> step1 w (add_nmon n r m w)
  | st_del_nmon n r w : step1 w (del_nmon n r w)
  | st_del_nmons n l w : step1 w (del_nmons n l w)
  | st_nmons_delete n w : step1 w (up_nmons (delete n) w)
  | st_node_start n a w : step1 w (fst (node_start_op n a w))
  | st_nmap_delete n w : step1 w (up_nmap (delete n) w)
  | st_nmap_clear w : step1 w (up_nmap (fun _ => ∅) w)
  | st_nregs_delete i w : step1 w (up_nregs (delete i) w)
  | st_nregs_clear w : step1 w (up_nregs (fun _ => ∅) w)
  | st_pend_delete n w : step1 w (up_pend (delete n) w)
  | st_pend_clear w : step1 w (up_pend (fun _ => ∅) w)
  | st_disconnect n p w : step1 w (node_disconnect_op n p w)
  | st_accept n a p q w : step1 w (fst (node_accept_op n a p q w))
  | st_workers n p q w : step1 w (node_workers_op n p q w)
  | st_sup_down n p w : step1 w (fst (sup_down_op n p w)).

  Ltac stp := first [apply st_none | (apply st_add_mon; [by auto | cbn; by eauto]) | by constructor | by (constructor; auto) | by (constructor; cbn; auto)].
  Ltac gs := repeat first
    [ exact I
    | apply guar_ret | apply guar_panic
    | apply guar_observe; intros; apply st_none
    | apply guar_modify; intros; stp
    | apply guar_atom; intros; cbn [fst]; stp
    | apply guar_each; intros
    | apply guar_bind; [|intros]
    | match goal with |- guar _ (match ?x with _ => _ end) => destruct x eqn:? end
    | match goal with |- guar _ (if ?x then _ else _) => destruct x eqn:? end ].

  Lemma guar_deliver d x : allowed U M x -> guar step1 (deliver d x).
  Proof. intros Hx. unfold deliver, name_lookup, alias_retrieve. gs. Qed.
  Lemma guar_register_node nd c : guar step1 (node_register nd c).
  Proof. unfold node_register. gs. Qed.
  Lemma guar_remote_target d : guar step1 (remote_target d).
  Proof. unfold remote_target. gs; apply guar_register_node. Qed.
  Definition can_send (v : value) : Prop := U (IUserLocal v) /\ U (IUserRemote (ser S v)).
  Lemma guar_send_one d v : can_send v -> guar step1 (send_one S d v).
  Proof. intros [H1 H2]. unfold send_one. gs; first [apply guar_deliver; assumption | apply guar_remote_target]. Qed.
  Lemma guar_send_loop v l first rem : can_send v -> guar step1 (send_loop S v l first rem).
  Proof.
    intros [H1 H2]. revert first rem; induction l as [|d l IH]; intros first rem; cbn [send_loop]; gs; auto.
    - apply guar_deliver; assumption.
    - apply guar_remote_target.
  Qed.
  Lemma guar_send ds v : can_send v -> guar step1 (send S ds v).
  Proof. intros Hv. unfold send. gs; first [by apply guar_send_one | by apply guar_send_loop]. Qed.
  Lemma guar_destroy_timer r : guar step1 (destroy_timer r).
  Proof. unfold destroy_timer. gs. Qed.
  Lemma guar_fire i : (forall v, can_send v) -> guar step1 (timer_fire S i).
  Proof.
    intros Hv. unfold timer_fire. apply guar_bind.
    - cbn. intros w _. split; [apply st_task_kill | exact I].
    - intros; gs; first [by apply guar_send | apply guar_destroy_timer].
  Qed.
  Lemma guar_spawn me l m : (m = true -> M /\ O) -> guar step1 (spawn me l m).
  Proof. intros Hm. unfold spawn, fresh_ref, own_monitor, own. destruct m; [destruct (Hm eq_refl)|]; gs. Qed.
  Lemma guar_link_create p f : guar step1 (link_create p f).
  Proof. unfold link_create. gs. Qed.
  Lemma guar_link_install p f : guar step1 (link_install p f).
  Proof. unfold link_install. gs; first [apply guar_link_create | apply guar_register_node]. Qed.
  Lemma guar_link_destroy p f : guar step1 (link_destroy p f).
  Proof. unfold link_destroy. gs. Qed.
  Lemma guar_monitor_destroy p r : guar step1 (monitor_destroy p r).
  Proof. unfold monitor_destroy. gs. Qed.
  Lemma guar_alias_destroy r : guar step1 (alias_destroy r).
  Proof. unfold alias_destroy, alias_destroy_op. gs. Qed.
  Lemma guar_monitor_destroy_all l : guar step1 (monitor_destroy_all l).
  Proof. unfold monitor_destroy_all. gs; apply guar_alias_destroy. Qed.
  Lemma guar_self_down me d r s : M -> guar step1 (self_down me d r s).
  Proof. intros HM. unfold self_down. gs; apply guar_alias_destroy. Qed.
  Lemma guar_monitor_remote me n a r d i nm : M -> guar step1 (monitor_remote me n a r d i nm).
  Proof. intros HM. unfold monitor_remote. gs; apply guar_register_node. Qed.
  Lemma guar_monitor_install me d r : M -> O -> guar step1 (monitor_install me d r).
  Proof.
    intros HM HO. unfold monitor_install, monitor_local, own_monitor, own, name_lookup.
    gs; first [by apply guar_self_down | by apply guar_monitor_remote].
  Qed.
  Lemma guar_link_process_down p r : guar step1 (link_process_down p r).
  Proof. unfold link_process_down. gs. Qed.
  Lemma guar_monitor_process_down p r : M -> guar step1 (monitor_process_down p r).
  Proof. intros HM. unfold monitor_process_down. gs; apply guar_alias_destroy. Qed.
  Lemma guar_alias_destroy_all l : guar step1 (alias_destroy_all l).
  Proof. unfold alias_destroy_all. gs. Qed.
  Lemma guar_drop me : M -> guar step1 (drop_process me).
  Proof.
    intros HM. unfold drop_process. gs; first [apply guar_link_process_down | by apply guar_monitor_process_down
      | apply guar_monitor_destroy_all | apply guar_alias_destroy_all].
  Qed.
  Lemma guar_supervisor_down nd p : M -> guar step1 (supervisor_down nd p).
  Proof.
    intros HM. unfold supervisor_down.
    gs; first [apply guar_link_destroy | apply guar_monitor_destroy | apply guar_alias_destroy].
  Qed.
  Definition frame_ok (f : frame) : Prop :=
    match f with
    | FSend _ m => U (IUserRemote m)
    | FMonitor _ _ _ _ _ | FMonitorDown _ _ => M
    | _ => True
    end.
  Lemma guar_receive_frame nd p f : frame_ok f -> guar step1 (receive_frame nd p f).
  Proof.
    intros Hf. unfold receive_frame, forward_send, on_monitor, on_link, name_lookup, node_process_monitor_down,
      node_process_link_down.
    destruct f; cbn in Hf; gs; first [apply guar_deliver; assumption | apply guar_register_node | apply guar_monitor_destroy
              | apply guar_link_create | apply guar_link_destroy | apply guar_alias_destroy].
  Qed.

  Definition permitted (c : call) : Prop :=
    match c with
    | CAlias _ _ => A
    | CMonitorAlias _ _ _ => A /\ M /\ O
    | CFinish _ | CCrash _ _ | CSupDown _ _ => M
    | CMonitor _ _ | CNodeMonitor _ _ => M /\ O
    | CSpawn _ _ m => m = true -> M /\ O
    | CSend _ v | CSendAfter _ v _ => can_send v
    | CFire _ => forall v, can_send v
    | CFrame _ _ f => frame_ok f
    | _ => True
    end.
  (** Every step of every call is one of the above. *)
  Lemma call_steps_permitted c : permitted c -> guar step1 (call_prog S c).
  Proof.
    destruct c; intros Hc; cbn in Hc; cbn [call_prog]; unfold ret_as.
    all: apply guar_bind; [|intros; exact I].
    - unfold alias, fresh_ref, own. gs.
    - unfold unalias, own. gs; apply guar_alias_destroy.
    - unfold whereis, name_lookup. gs.
    - by apply guar_send.
    - destruct Hc. unfold send_after, fresh_ref. gs.
    - apply guar_destroy_timer.
    - unfold read_timer. gs.
    - by apply guar_fire.
    - gs.
    - by apply guar_spawn.
    - unfold alive. gs.
    - unfold register. gs.
    - unfold unregister. gs.
    - unfold registered. gs.
    - unfold list_processes. gs.
    - unfold link. gs; apply guar_link_install.
    - unfold unlink. gs; apply guar_link_destroy.
    - destruct Hc. unfold monitor, fresh_ref. gs; by apply guar_monitor_install.
    - destruct Hc as (? & ? & ?). unfold monitor_alias, fresh_ref. gs; by apply guar_monitor_install.
    - unfold demonitor, take_monitor. gs; first [apply guar_monitor_destroy | apply guar_alias_destroy].
    - unfold flags. gs.
    - unfold set_flags. gs.
    - unfold exit. gs.
    - unfold info. gs.
    - unfold try_receive. gs.
    - by apply guar_drop.
    - unfold crash. gs; by apply guar_drop.
    - unfold node_alive. gs.
    - unfold node_start. gs.
    - unfold node_stop. gs.
      apply guar_modify; intros w. repeat case_match; stp.
    - unfold node_local_panic. gs.
    - unfold node_list. gs.
    - unfold node_list_by. gs.
    - unfold node_connect. gs; apply guar_register_node.
    - unfold node_disconnect. gs.
    - unfold forget, node_forget, exit. gs.
    - destruct Hc. unfold node_monitor, fresh_ref, own_monitor, own. gs; apply guar_register_node.
    - unfold node_demonitor, take_monitor. gs.
    - unfold remote_supervisor. gs; apply guar_spawn; discriminate.
    - by apply guar_supervisor_down.
    - by apply guar_receive_frame.
  Qed.

End steps.

(** No restriction. *)
Notation anystep S := (step1 S (fun _ => True) True True True).
Section all.
  Context (S : serde).
  Theorem call_steps c : guar (anystep S) (call_prog S c).
  Proof.
    apply call_steps_permitted. destruct c; cbn; unfold can_send; auto.
    destruct f; cbn; auto.
  Qed.

  (** From any system whose calls are API calls, every step taken is one of the above. *)
  Lemma api_reach (G : world -> world -> Prop) s s' :
    (forall w, G w w) -> (forall a b c, G a b -> G b c -> G a c) ->
    (forall w w', anystep S w w' -> G w w') ->
    Forall (guar (anystep S)) (s_threads s) -> reach (any_call S) s s' -> G (s_world s) (s_world s').
  Proof.
    intros Hr Ht Hs Hg Hreach.
    eapply (reach_guar G); [exact Hr | exact Ht | | | exact Hreach].
    - intros p [c ->]. eapply guar_mono; [exact Hs | apply call_steps].
    - eapply Forall_impl; [exact Hg|]. intros p. apply guar_mono, Hs.
  Qed.
End all.
