(** C56-C59: monitors, links, messages and exit signals between the processes of two nodes. *)
From stdpp Require Import base list gmap numbers strings countable sorting relations.
From Coq Require Import Lia Ascii.
From Verif Require Import Prog ProgProofs ProgInv Types Mailbox MailboxSpec MailboxProofs World ProcApi NodeApi Api Steps Hist Labels Play SchedSpec SchedProofs
  ProcSpec ProcProofs ProcInv FreshProofs MonProofs MonLife SendSpec SendProofs SendProps NetSpec NetProofs NetExit NetFrames RMonProofs NetLife Persist ConnProofs ConnLasts AllocProofs SchedProps ConnProps.

Lemma run_frame S nd sup f w w' : run (receive_frame nd sup f) w = Done w' tt -> run (call_prog S (CFrame nd sup f)) w = Done w' VUnit.
Proof. intros E. cbn [call_prog]. unfold ret_as. by rewrite run_bind, E. Qed.

(** ** C56. *)
(** The monitors other processes have on the local process [i]. *)
Definition monitors_on (w : world) (i : N) : gmap reference (pid * option dest) := default ∅ (w_mons w !! i).
(** *** The monitored side *)
(** A request for a process that exists is recorded; nobody is told anything. *)
Theorem C56_request_installed :
  forall S nm ad n sup i f k w, w_nmap w !! NRemote nm ad = Some n -> is_Some (w_regs w !! i) ->
    exists w', run (call_prog S (CFrame (NRemote nm ad) sup (FMonitor true (Some i) None (Some f) k))) w = Done w' VUnit /\
      monitors_on w' i !! RRemote k n = Some (PRemote f n, None) /\
      monitors_to w' (NRemote nm ad) !! RRemote k n = Some (NMCleanup i) /\
      w_regs w' = w_regs w /\ w_loc w' = w_loc w /\ w_links w' = w_links w /\ w_nlinks w' = w_nlinks w /\
      (forall c, queued w' c = queued w c) /\
      (forall j x, (j, x) <> (i, RRemote k n) -> monitors_on w' j !! x = monitors_on w j !! x).
Proof.
  intros S nm ad n sup i f k w En [r Hr].
  exists (add_nmon (NRemote nm ad) (RRemote k n) (NMCleanup i) (add_mon i (RRemote k n) (PRemote f n) None w)). split_and!; try reflexivity.
  - apply run_frame. unfold receive_frame. rewrite run_bind, (run_known _ _ _ _ En). unfold on_monitor.
    rewrite run_bind, run_observe. unfold exists_proc. rewrite bool_decide_true by eauto. rewrite run_bind, run_modify, run_modify. reflexivity.
  - unfold monitors_on; cbn. rewrite lookup_insert. cbn. by rewrite lookup_insert.
  - unfold monitors_to; cbn. rewrite lookup_insert. cbn. by rewrite lookup_insert.
  - intros j x Hx. unfold monitors_on; cbn. destruct (decide (j = i)) as [->|Hj]; [|by rewrite lookup_insert_ne].
    rewrite lookup_insert. cbn. rewrite lookup_insert_ne; [done|]. intros <-. done.
Qed.
Print Assumptions C56_request_installed.
(** The same by name: the process that has the name, and the asking node learns which one it is. *)
Theorem C56_request_by_name :
  forall S nm ad n sup s i f k w, w_nmap w !! NRemote nm ad = Some n -> w_names w !! s = Some i ->
    exists w', run (call_prog S (CFrame (NRemote nm ad) sup (FMonitor true None (Some s) (Some f) k))) w = Done w' VUnit /\
      monitors_on w' i !! RRemote k n = Some (PRemote f n, None) /\
      monitors_to w' (NRemote nm ad) !! RRemote k n = Some (NMCleanup i) /\
      w_regs w' = w_regs w /\ w_loc w' = w_loc w /\ emits w [(n, FMonitorUpdate f i k)] w w'.
Proof.
  intros S nm ad n sup s i f k w En Es.
  set (w1 := add_mon i (RRemote k n) (PRemote f n) None w).
  destruct (adds_send (FMonitorUpdate f i k) n w1) as [A _]. destruct (send_frame_out (FMonitorUpdate f i k) n w1) as [_ (o & p & E)].
  exists (add_nmon (NRemote nm ad) (RRemote k n) (NMCleanup i) (send_frame (FMonitorUpdate f i k) n w1)). split_and!.
  - apply run_frame. unfold receive_frame. rewrite run_bind, (run_known _ _ _ _ En). unfold on_monitor.
    unfold name_lookup. rewrite run_bind, run_observe. rewrite Es. rewrite run_bind, run_modify. fold w1. rewrite run_bind, run_modify, run_modify. reflexivity.
  - unfold monitors_on. rewrite E. cbn. rewrite lookup_insert. cbn. by rewrite lookup_insert.
  - unfold monitors_to; cbn. rewrite lookup_insert. cbn. by rewrite lookup_insert.
  - rewrite E. reflexivity.
  - rewrite E. reflexivity.
  - intros c. specialize (A c). destruct c; exact A.
Qed.
Print Assumptions C56_request_by_name.
(** A request for a process that does not exist, by id or by name, is answered at once. *)
Theorem C56_request_noproc :
  forall S nm ad n sup i s f k w, w_nmap w !! NRemote nm ad = Some n ->
    match i with Some i => w_regs w !! i = None | None => exists x, s = Some x /\ w_names w !! x = None end ->
    exists w', run (call_prog S (CFrame (NRemote nm ad) sup (FMonitor true i s (Some f) k))) w = Done w' VUnit /\
      emits w [(n, FMonitorDown [k] (RCustom "noproc"))] w w' /\
      w_regs w' = w_regs w /\ w_loc w' = w_loc w /\ w_mons w' = w_mons w /\ w_nmons w' = w_nmons w.
Proof.
  intros S nm ad n sup i s f k w En Hi.
  destruct (adds_send (FMonitorDown [k] (RCustom "noproc")) n w) as [A _]. destruct (send_frame_out (FMonitorDown [k] (RCustom "noproc")) n w) as [_ (o & p & E)].
  exists (send_frame (FMonitorDown [k] (RCustom "noproc")) n w). split; [|split; [exact A|rewrite E; done]].
  apply run_frame. unfold receive_frame. rewrite run_bind, (run_known _ _ _ _ En). unfold on_monitor. destruct i as [i|].
  - rewrite run_bind, run_observe. unfold exists_proc. rewrite bool_decide_false by (rewrite Hi; by intros []). by rewrite run_modify.
  - destruct Hi as (x & -> & Hx). unfold name_lookup. rewrite run_bind, run_observe, Hx. by rewrite run_modify.
Qed.
Print Assumptions C56_request_noproc.
(** When the monitored process ends, the node of the monitoring process is sent one MonitorDown frame
    with the exit reason and the reference in it, and no other MonitorDown frame. *)
Lemma monitored_from_elem w i n k : k ∈ monitored_from w i n <->
  exists r p d, monitors_on w i !! r = Some (p, d) /\ ref_id r = k /\ pid_is_local p = false /\ pid_node p = n.
Proof.
  unfold monitored_from, remote_monitors, monitors_on. split.
  - intros H. apply elem_of_list_In, in_map_iff in H as ([r [p d]] & <- & H). apply elem_of_list_In, elem_of_list_filter in H as [Hn H].
    apply elem_of_list_filter in H as [Hl H]. apply sorted_refs_elem in H. cbn in *. by exists r, p, d.
  - intros (r & p & d & H & <- & Hl & Hn). apply elem_of_list_In, in_map_iff. exists (r, (p, d)). split; [done|].
    apply elem_of_list_In, elem_of_list_filter. split; [done|]. apply elem_of_list_filter. split; [done|]. by apply sorted_refs_elem.
Qed.
Lemma nodes_monitoring_elem w i n : n ∈ nodes_monitoring w i <->
  exists r p d, monitors_on w i !! r = Some (p, d) /\ pid_is_local p = false /\ pid_node p = n.
Proof.
  unfold nodes_monitoring, remote_monitors, monitors_on, sorted_ids. rewrite merge_sort_Permutation, elem_of_elements, elem_of_list_to_set. split.
  - intros H. apply elem_of_list_In, in_map_iff in H as ([r [p d]] & <- & H). apply elem_of_list_In, elem_of_list_filter in H as [Hl H].
    apply sorted_refs_elem in H. by exists r, p, d.
  - intros (r & p & d & H & Hl & Hn). apply elem_of_list_In, in_map_iff. exists (r, (p, d)). split; [done|].
    apply elem_of_list_In, elem_of_list_filter. split; [done|]. by apply sorted_refs_elem.
Qed.
Lemma sorted_ids_nodup (s : gset N) : NoDup (sorted_ids s).
Proof. unfold sorted_ids. rewrite merge_sort_Permutation. apply NoDup_elements. Qed.
(** The MonitorDown frames among some frames. *)
Definition is_monitor_down (f : frame) : Prop := match f with FMonitorDown _ _ => True | _ => False end.
Global Instance is_monitor_down_dec f : Decision (is_monitor_down f).
Proof. destruct f; cbn; apply _. Defined.
Definition is_link_down (f : frame) : Prop := match f with FLinkDown _ _ _ => True | _ => False end.
Global Instance is_link_down_dec f : Decision (is_link_down f).
Proof. destruct f; cbn; apply _. Defined.
Lemma filter_map_snd {A B} (P : B -> Prop) `{!forall b, Decision (P b)} (l : list (A * B)) :
  filter P (map snd l) = map snd (filter (fun x => P (snd x)) l).
Proof.
  induction l as [|[a b] l IH]; [done|]. cbn [map snd]. rewrite !filter_cons. cbn [snd]. destruct (decide (P b)); cbn [map snd]; by rewrite IH.
Qed.
Lemma withdraw_not w a f : f ∈ withdraw_frames w a -> ~ is_monitor_down (snd f) /\ ~ is_link_down (snd f).
Proof.
  unfold withdraw_frames. destruct (w_loc w !! a) as [l|]; [|by intros ?%elem_of_nil]. intros H.
  apply elem_of_list_omap in H as ([r m] & _ & H). destruct m as [[[]|]|]; try discriminate. injection H as <-. split; intros [].
Qed.
Lemma filter_frames_one (f : N -> frame) (Q : N * frame -> Prop) `{!forall x, Decision (Q x)} (ns : list N) n :
  NoDup ns -> n ∈ ns -> (forall m y, Q (m, y) <-> m = n) -> filter Q (map (fun m => (m, f m)) ns) = [(n, f n)].
Proof.
  intros Hnd Hin Hq. induction ns as [|m ns IH]; [set_solver|]. apply NoDup_cons in Hnd as [Hm Hnd]. cbn [map]. destruct (decide (m = n)) as [->|Hne].
  - rewrite filter_cons_True by (by apply Hq). f_equal. apply list_filter_none, Forall_forall. intros y Hy Hpy.
    apply elem_of_list_In, in_map_iff in Hy as (z & <- & Hz%elem_of_list_In). apply Hq in Hpy. by subst z.
  - rewrite filter_cons_False by (by rewrite Hq). apply IH; [done|]. set_solver.
Qed.
Theorem C56_exit_is_reported :
  forall S w i r k f n c, occurs S w -> w_regs w !! i = Some r -> monitors_on w i !! RRemote k n = Some (PRemote f n, None) ->
    (* the channel (connection or pending queue) of the node, which is its own *)
    channel_of (without i w) n = Some c -> (forall m, channel_of (without i w) m = Some c -> m = n) ->
    exists w' rs fs, run (call_prog S (CFinish i)) w = Done w' VUnit /\ queued w' c = queued w c ++ fs /\ k ∈ rs /\
      filter is_monitor_down fs = [FMonitorDown rs (final_reason r)].
Proof.
  intros S w i r k f n c Ho Hr Hm Hc Hu. destruct (drop_frames i w r Hr (occurs_named S w Ho i)) as (w' & E & He).
  exists w', (monitored_from w i n). eexists. split; [cbn [call_prog]; unfold ret_as; by rewrite run_bind, E|]. split; [apply He|].
  split; [apply monitored_from_elem; by exists (RRemote k n), (PRemote f n), None|].
  rewrite filter_map_snd. rewrite !list.filter_app.
  rewrite (list_filter_none (fun x => is_monitor_down (snd x)) (filter _ (withdraw_frames w i))).
  2: { apply Forall_forall. intros x Hx. apply elem_of_list_filter in Hx as [_ Hx]. by apply (withdraw_not w i). }
  rewrite app_nil_r. unfold exit_frames. rewrite !list.filter_app.
  rewrite (list_filter_none (fun x => is_monitor_down (snd x)) (filter _ (map (fun n => (n, FLinkDown _ _ _)) _))).
  2: { apply Forall_forall. intros x Hx. apply elem_of_list_filter in Hx as [_ Hx]. apply elem_of_list_In, in_map_iff in Hx as (y & <- & _). intros []. }
  cbn [app]. rewrite (filter_frames_one (fun n => FMonitorDown (monitored_from w i n) (final_reason r)) _ _ n).
  - rewrite filter_cons_True by done. reflexivity.
  - apply sorted_ids_nodup.
  - apply nodes_monitoring_elem. by exists (RRemote k n), (PRemote f n), None.
  - intros m y. cbn. split; [apply Hu|by intros ->].
Qed.
Print Assumptions C56_exit_is_reported.

(** *** The monitoring side *)
(** The request leaves, and after that, whatever other processes do and in whatever order, the answer
    makes exactly one ProcessDown with the reason in it; it is the same for 'noproc' (the frame of
    [C56_request_noproc]) and for an exit ([C56_exit_is_reported]).  If the connection is lost first,
    see [C52_process_monitor] (exactly one, 'noconnection'). *)
Theorem C56_monitor_answered :
  forall S me d w nm ad i s tgt, occurs S w -> is_Some (w_regs w !! me) -> is_Some (w_loc w !! me) -> remote_dest w d nm ad i s tgt ->
    exists w1 k n, run (call_prog S (CMonitor me d)) w = Done w1 (VRef (RLocal k)) /\
      w_nmap w1 !! NRemote nm ad = Some n /\ emits w1 [(n, FMonitor true i s (Some me) k)] w w1 /\
    forall s, reach (calls_of S (leaves_remote_monitor k me (NRemote nm ad))) (Sys w1 []) s ->
    forall sup rs why, k ∈ rs ->
      exists w2 l l2, run (call_prog S (CFrame (NRemote nm ad) sup (FMonitorDown rs why))) (s_world s) = Done w2 VUnit /\
        w_loc (s_world s) !! me = Some l /\ w_loc w2 !! me = Some l2 /\
        notices k l = [] /\ notices k l2 = [PSys (SProcessDown d (RLocal k) why)] /\
        (* and a second answer, or a connection lost later, finds nothing to report *)
        monitors_to w2 (NRemote nm ad) !! RLocal k = None.
Proof.
  intros S me d w nm ad i sn tgt Ho Hme Hl Hd. destruct (run_monitor_remote S me d w nm ad i sn tgt Ho Hme Hl Hd) as (w1 & n & E & Hw & Em & Ee).
  exists w1, (w_next_ref w), n. split. { cbn [call_prog]. unfold ret_as. rewrite run_bind, E. reflexivity. }
  split; [done|]. split; [done|].
  intros s Hr sup rs why Hk. pose proof (reach_rwatching S (w_next_ref w) me (NRemote nm ad) (NMProcess me d) w1 s Hw Hr) as Hs.
  destruct (notified_by_frame _ _ _ _ _ sup rs why Hs Hk) as (w2 & l & l2 & E2 & El & El2 & N1 & N2 & N3).
  exists w2, l, l2. split_and!; try done. by apply run_frame.
Qed.
Print Assumptions C56_monitor_answered.
(** A node that was forgotten: the notice is there when the call returns. *)
Theorem C56_monitor_forgotten :
  forall S me i n w, occurs S w -> is_Some (w_loc w !! me) -> lookup_remote n w = None ->
    exists w1 k l1, run (call_prog S (CMonitor me (DPid (PRemote i n)))) w = Done w1 (VRef (RLocal k)) /\ w_loc w1 !! me = Some l1 /\
      notices k l1 = [PSys (SProcessDown (DPid (PRemote i n)) (RLocal k) (RCustom "noconnection"))].
Proof.
  intros S me i n w Ho Hl Hn. destruct (run_monitor_forgotten S me i n w Ho Hl Hn) as (w1 & l & l1 & E & _ & El & _ & N).
  exists w1, (w_next_ref w), l1. split; [|done]. cbn [call_prog]. unfold ret_as. by rewrite run_bind, E.
Qed.
Print Assumptions C56_monitor_forgotten.

(** *** Both sides together.
    Node A (state [w]) knows node B as [NRemote nb ab]; node B (state [v]) knows A as [na].  Process
    [me] of A monitors process [i] of B; the frame that leaves A reaches B; B gets to any state [v2]
    in which the monitor it recorded is still there and its connection to A is up; [i] ends; the
    frame that leaves B reaches A, where other calls were made meanwhile in any schedule: [me] gets
    exactly one notice, with the reason [i] ended with. *)
Theorem C56_two_nodes :
  forall S (w v : world) me i n nb ab nma ada m supA supB,
    occurs S w -> is_Some (w_regs w !! me) -> is_Some (w_loc w !! me) -> lookup_remote n w = Some (nb, ab) ->
    w_nmap v !! NRemote nma ada = Some m -> is_Some (w_regs v !! i) ->
    exists w1 k fr v1, run (call_prog S (CMonitor me (DPid (PRemote i n)))) w = Done w1 (VRef (RLocal k)) /\
      (exists n', w_nmap w1 !! NRemote nb ab = Some n' /\ emits w1 [(n', fr)] w w1) /\
      run (call_prog S (CFrame (NRemote nma ada) supB fr)) v = Done v1 VUnit /\
      monitors_on v1 i !! RRemote k m = Some (PRemote me m, None) /\
      forall v2 r c, occurs S v2 -> monitors_on v2 i !! RRemote k m = monitors_on v1 i !! RRemote k m -> w_regs v2 !! i = Some r ->
        channel_of (without i v2) m = Some c -> (forall x, channel_of (without i v2) x = Some c -> x = m) ->
        exists v3 fs rs, run (call_prog S (CFinish i)) v2 = Done v3 VUnit /\ queued v3 c = queued v2 c ++ fs /\
          filter is_monitor_down fs = [FMonitorDown rs (final_reason r)] /\
          forall s, reach (calls_of S (leaves_remote_monitor k me (NRemote nb ab))) (Sys w1 []) s ->
            exists w2 l l2, run (call_prog S (CFrame (NRemote nb ab) supA (FMonitorDown rs (final_reason r)))) (s_world s) = Done w2 VUnit /\
              w_loc (s_world s) !! me = Some l /\ w_loc w2 !! me = Some l2 /\
              notices k l = [] /\ notices k l2 = [PSys (SProcessDown (DPid (PRemote i n)) (RLocal k) (final_reason r))].
Proof.
  intros S w v me i n nb ab nma ada m supA supB Ho Hme Hl Hn Hm Hi.
  destruct (C56_monitor_answered S me (DPid (PRemote i n)) w nb ab (Some i) None _ Ho Hme Hl (rd_pid w i n nb ab Hn)) as (w1 & k & n' & E & En & Ee & Ha).
  destruct (C56_request_installed S nma ada m supB i me k v Hm Hi) as (v1 & Ev & Hv & _).
  exists w1, k, (FMonitor true (Some i) None (Some me) k), v1. split; [done|]. split; [by exists n'|]. split; [done|]. split; [done|].
  intros v2 r c Hov Hv2 Hr Hc Hu. rewrite Hv in Hv2.
  destruct (C56_exit_is_reported S v2 i r k me m c Hov Hr Hv2 Hc Hu) as (v3 & rs & fs & E3 & Eq & Hk & Hf).
  exists v3, fs, rs. split; [done|]. split; [done|]. split; [done|]. intros s Hs.
  destruct (Ha s Hs supA rs (final_reason r) Hk) as (w2 & l & l2 & ? & ? & ? & ? & ? & _). by exists w2, l, l2.
Qed.
Print Assumptions C56_two_nodes.
(** Process 1 of this node monitors process 9 of a connected node; the answer that it ended arrives. *)
Example C56_example :
  exists w, proper S0 w /\ is_Some (w_regs w !! 1%N) /\ lookup_remote 1 w = Some ("a", SA4 1 5) /\
    match run (call_prog S0 (CMonitor 1 (DPid (PRemote 9 1)))) w with
    | Done w1 v => v = VRef (RLocal 1) /\ w_out w1 !! 3%N = Some [FMonitor true (Some 9%N) None (Some 1%N) 1] /\
        match run (call_prog S0 (CFrame nodeA (PLocal 2) (FMonitorDown [1%N] (RCustom "x")))) w1 with
        | Done w2 _ => (l_chan <$> w_loc w2 !! 1%N) = Some [IProcessDown (DPid (PRemote 9 1)) (RLocal 1) (RCustom "x")]
        | _ => False
        end
    | _ => False
    end.
Proof.
  apply (proper_some S0 (fun w => _ /\ _ /\ _) [CSpawn 0 false false; CConnect nodeA; CSupervise 2 "a" (SA4 1 5)]).
  { repeat constructor. }
  vm_compute. eauto 10.
Qed.
(** The monitored side: process 1 is monitored by process 7 of node "a", under its reference 4, and ends. *)
Example C56_example_monitored :
  exists w, proper S0 w /\ monitors_on w 1 !! RRemote 4 1 = Some (PRemote 7 1, None) /\
    channel_of (without 1 w) 1 = Some (inl 3%N) /\
    match run (call_prog S0 (CFinish 1)) w with
    | Done w1 _ => queued w1 (inl 3%N) = [FMonitorDown [4%N] (RCustom "x")]
    | _ => False
    end.
Proof.
  apply (proper_some S0 (fun w => _ /\ _ /\ _) [CSpawn 0 false false; CConnect nodeA; CSupervise 2 "a" (SA4 1 5);
    CFrame nodeA (PLocal 2) (FMonitor true (Some 1%N) None (Some 7%N) 4); CExit 1 (PLocal 1) (RCustom "x")]).
  { repeat constructor. }
  vm_compute. auto.
Qed.

(** ** C57. *)
(** What Process::demonitor does for a monitor on a remote process: the caller forgets it, so that no
    notice with this reference can be received any more ([C23_demonitor_partial]); but the message to
    the other node is addressed to node 0 - the local one -, and the record of the monitor stays. *)
Theorem C57_demonitor_effect_partial :
  forall S me k i n w l, w_loc w !! me = Some l -> l_monitors l !! RLocal k = Some (MForProcess (Some (PRemote i n))) ->
    exists w', run (call_prog S (CDemonitor me (RLocal k))) w = Done w' VUnit /\
      w_loc w' !! me = Some (upd_monitors (delete (RLocal k)) l) /\ w_aliases w' = delete k (w_aliases w) /\
      emits w [(LOCAL_NODE_ID, FMonitor false (Some i) None None k)] w w' /\
      (forall nd, nd <> match lookup_local w with Some (nm, ad) => NRemote nm ad | None => NLocal end ->
         monitors_to w' nd = monitors_to w nd).
Proof.
  intros S me k i n w l Hl Hm.
  set (w1 := up_loc (alter (upd_monitors (delete (RLocal k))) me) w). set (f := FMonitor false (Some i) None None k).
  destruct (adds_send f LOCAL_NODE_ID w1) as [A _]. destruct (send_frame_out f LOCAL_NODE_ID w1) as [_ (o & p & E)].
  set (w2 := send_frame f LOCAL_NODE_ID w1) in *.
  assert (lookup_remote LOCAL_NODE_ID w2 = lookup_local w) as En by (rewrite E; reflexivity).
  set (w3 := match lookup_local w with Some (nm, ad) => del_nmon (NRemote nm ad) (RLocal k) w2 | None => w2 end).
  assert (run (call_prog S (CDemonitor me (RLocal k))) w = Done (up_aliases (delete k) w3) VUnit) as Erun.
  { cbn [call_prog]. unfold ret_as. rewrite run_bind. unfold demonitor, take_monitor. rewrite run_bind, run_atom. cbn [fst snd]. rewrite Hl, Hm.
    unfold monitor_destroy. cbn [pid_is_local pid_id ref_node ref_id]. rewrite run_bind, run_bind, run_modify. fold w1 f. fold w2.
    rewrite run_bind, run_observe, En. unfold w3. destruct (lookup_local w) as [[nm ad]|]; reflexivity. }
  exists (up_aliases (delete k) w3). split; [exact Erun|].
  assert (w_loc w3 = w_loc w1 /\ w_aliases w3 = w_aliases w /\ w_out w3 = w_out w2 /\ w_pend w3 = w_pend w2) as (B1 & B2 & B3 & B4).
  { unfold w3. rewrite E. destruct (lookup_local w) as [[nm ad]|]; done. }
  split_and!.
  - cbn. rewrite B1. cbn. by rewrite lookup_alter, Hl.
  - cbn. by rewrite B2.
  - intros c. specialize (A c). destruct c; cbn [queued up_aliases w_out w_pend]; rewrite ?B3, ?B4; exact A.
  - intros nd Hnd. unfold monitors_to; cbn. unfold w3. destruct (lookup_local w) as [[nm ad]|]; cbn; rewrite E; cbn; [|done].
    by rewrite lookup_alter_ne by congruence.
Qed.
Print Assumptions C57_demonitor_effect_partial.
(** Were that frame to reach the monitored node, its receiver process would panic. *)
Theorem C57_withdrawal_panics_partial :
  forall S nm ad n sup i k w, w_nmap w !! NRemote nm ad = Some n ->
    exists w' msg, run (call_prog S (CFrame (NRemote nm ad) sup (FMonitor false (Some i) None None k))) w = Panicked w' msg.
Proof.
  intros S nm ad n sup i k w E. eexists _, _. cbn [call_prog]. unfold ret_as. rewrite run_bind. unfold receive_frame.
  rewrite run_bind, (run_known _ _ _ _ E). reflexivity.
Qed.
Print Assumptions C57_withdrawal_panics_partial.
(** The property. *)
Definition C57_statement (S : serde) (c : N -> N -> call) : Prop :=
  forall w me k i n nm ad l ch w', proper S w -> made_by_running (c me k) w -> w_loc w !! me = Some l ->
    l_monitors l !! RLocal k = Some (MForProcess (Some (PRemote i n))) -> lookup_remote n w = Some (nm, ad) -> channel_of w n = Some ch ->
    happens S (c me k) w w' ->
    (* the other node is told *)
    (exists f, queued w' ch = queued w ch ++ [FMonitor false (Some i) None f k]) /\
    (* and the local record goes *)
    monitors_to w' (NRemote nm ad) !! RLocal k = None.
Lemma C57_world :
  exists w, proper S0 w /\ (made_by_running (CDemonitor 1 (RLocal 1)) w /\ made_by_running (CFinish 1) w) /\
    (exists l, w_loc w !! 1%N = Some l /\ l_monitors l !! RLocal 1 = Some (MForProcess (Some (PRemote 9 1)))) /\
    lookup_remote 1 w = Some ("a", SA4 1 5) /\ channel_of w 1 = Some (inl 3%N) /\
    (exists w', happens S0 (CDemonitor 1 (RLocal 1)) w w' /\ queued w' (inl 3%N) = queued w (inl 3%N) /\
      monitors_to w' nodeA !! RLocal 1 = Some (NMProcess 1 (DPid (PRemote 9 1)))) /\
    (exists w', happens S0 (CFinish 1) w w' /\ queued w' (inl 3%N) = queued w (inl 3%N) /\
      monitors_to w' nodeA !! RLocal 1 = Some (NMProcess 1 (DPid (PRemote 9 1)))).
Proof.
  assert (exists w, proper S0 w /\ (made_by_running (CDemonitor 1 (RLocal 1)) w /\ made_by_running (CFinish 1) w /\
    (exists l, w_loc w !! 1%N = Some l /\ l_monitors l !! RLocal 1 = Some (MForProcess (Some (PRemote 9 1)))) /\
    lookup_remote 1 w = Some ("a", SA4 1 5) /\ channel_of w 1 = Some (inl 3%N) /\
    match run (call_prog S0 (CDemonitor 1 (RLocal 1))) w with
    | Done w' _ => queued w' (inl 3%N) = queued w (inl 3%N) /\ monitors_to w' nodeA !! RLocal 1 = Some (NMProcess 1 (DPid (PRemote 9 1)))
    | _ => False end /\
    match run (call_prog S0 (CFinish 1)) w with
    | Done w' _ => queued w' (inl 3%N) = queued w (inl 3%N) /\ monitors_to w' nodeA !! RLocal 1 = Some (NMProcess 1 (DPid (PRemote 9 1)))
    | _ => False end)) as (w & Hw & A1 & A2 & A3 & A4 & A5 & A6 & A7).
  { apply (proper_some S0 (fun w => _ /\ _ /\ _ /\ _ /\ _ /\ _ /\ _)
      [CSpawn 0 false false; CConnect nodeA; CSupervise 2 "a" (SA4 1 5); CMonitor 1 (DPid (PRemote 9 1))]).
    { repeat constructor. }
    vm_compute. split_and!; eauto 10. }
  exists w. split; [done|]. split; [done|]. split; [done|]. split; [done|]. split; [done|]. split.
  - destruct (run (call_prog S0 (CDemonitor 1 (RLocal 1))) w) as [w1 v| |] eqn:E; try done. exists w1. split; [|done]. by eapply happens_done.
  - destruct (run (call_prog S0 (CFinish 1)) w) as [w1 v| |] eqn:E; try done. exists w1. split; [|done]. by eapply happens_done.
Qed.
Theorem C57_demonitor_refuted : ~ C57_statement S0 (fun me k => CDemonitor me (RLocal k)).
Proof.
  intros H. destruct C57_world as (w & Hw & [A1 _] & (l & A3 & A3') & A4 & A5 & (w' & B1 & B2 & B3) & _).
  destruct (H w 1%N 1%N 9%N 1%N "a" (SA4 1 5) l _ w' Hw A1 A3 A3' A4 A5 B1) as [_ H2]. fold nodeA in H2. rewrite B3 in H2. discriminate.
Qed.
Print Assumptions C57_demonitor_refuted.
Theorem C57_exit_refuted : ~ C57_statement S0 (fun me k => CFinish me).
Proof.
  intros H. destruct C57_world as (w & Hw & [_ A1] & (l & A3 & A3') & A4 & A5 & _ & (w' & B1 & B2 & B3)).
  destruct (H w 1%N 1%N 9%N 1%N "a" (SA4 1 5) l _ w' Hw A1 A3 A3' A4 A5 B1) as [_ H2]. fold nodeA in H2. rewrite B3 in H2. discriminate.
Qed.
Print Assumptions C57_exit_refuted.

(** ** C58. *)
Definition links_of (w : world) (i : N) : gset pid := default ∅ (w_links w !! i).
(** *** The linked side *)
Theorem C58_request_installed :
  forall S nm ad n sup i f w, w_nmap w !! NRemote nm ad = Some n -> is_Some (w_regs w !! i) ->
    exists w', run (call_prog S (CFrame (NRemote nm ad) sup (FLink true i f))) w = Done w' VUnit /\
      PRemote f n ∈ links_of w' i /\ (PRemote f n, i) ∈ links_to w' (NRemote nm ad) /\
      w_regs w' = w_regs w /\ w_loc w' = w_loc w /\ (forall c, queued w' c = queued w c) /\
      (forall j p, (j, p) <> (i, PRemote f n) -> p ∈ links_of w' j <-> p ∈ links_of w j).
Proof.
  intros S nm ad n sup i f w En Hr.
  exists (add_nlink (NRemote nm ad) (PRemote f n) i (add_link i (PRemote f n) w)). split_and!; try reflexivity.
  - apply run_frame. unfold receive_frame. rewrite run_bind, (run_known _ _ _ _ En). unfold on_link, link_create.
    rewrite run_bind, run_bind, run_observe. cbn [pid_id]. unfold exists_proc. rewrite bool_decide_true by done. reflexivity.
  - unfold links_of; cbn. rewrite lookup_insert. cbn. set_solver.
  - unfold links_to; cbn. rewrite lookup_insert. cbn. set_solver.
  - intros j p Hx. unfold links_of; cbn. destruct (decide (j = i)) as [->|Hj]; [|by rewrite lookup_insert_ne].
    rewrite lookup_insert. cbn. rewrite elem_of_union, elem_of_singleton. split; [|by right]. intros [->|?]; done.
Qed.
Print Assumptions C58_request_installed.
Theorem C58_request_noproc :
  forall S nm ad n sup i f w, w_nmap w !! NRemote nm ad = Some n -> w_regs w !! i = None ->
    exists w', run (call_prog S (CFrame (NRemote nm ad) sup (FLink true i f))) w = Done w' VUnit /\
      emits w [(n, FLinkDown [f] i (RCustom "noproc"))] w w' /\
      w_regs w' = w_regs w /\ w_loc w' = w_loc w /\ w_links w' = w_links w /\ w_nlinks w' = w_nlinks w.
Proof.
  intros S nm ad n sup i f w En Hr.
  destruct (adds_send (FLinkDown [f] i (RCustom "noproc")) n w) as [A _]. destruct (send_frame_out (FLinkDown [f] i (RCustom "noproc")) n w) as [_ (o & p & E)].
  exists (send_frame (FLinkDown [f] i (RCustom "noproc")) n w). split; [|split; [exact A|rewrite E; done]].
  apply run_frame. unfold receive_frame. rewrite run_bind, (run_known _ _ _ _ En). unfold on_link, link_create.
  rewrite run_bind, run_bind, run_observe. cbn [pid_id]. unfold exists_proc. rewrite bool_decide_false by (rewrite Hr; by intros []). reflexivity.
Qed.
Print Assumptions C58_request_noproc.
Theorem C58_unlink_request :
  forall S nm ad n sup i f w, w_nmap w !! NRemote nm ad = Some n ->
    exists w', run (call_prog S (CFrame (NRemote nm ad) sup (FLink false i f))) w = Done w' VUnit /\
      (forall j p, p ∈ links_of w' j <-> p ∈ links_of w j /\ (j, p) <> (i, PRemote f n)) /\
      (forall nd x, x ∈ links_to w' nd <-> x ∈ links_to w nd /\ (nd, x) <> (NRemote nm ad, (PRemote f n, i))) /\
      w_regs w' = w_regs w /\ w_loc w' = w_loc w /\ (forall c, queued w' c = queued w c).
Proof.
  intros S nm ad n sup i f w En.
  exists (del_nlinks (NRemote nm ad) [(PRemote f n, i)] (del_link i (PRemote f n) w)). split_and!; try reflexivity.
  - apply run_frame. unfold receive_frame. rewrite run_bind, (run_known _ _ _ _ En). reflexivity.
  - intros j p. unfold links_of; cbn. destruct (decide (j = i)) as [->|Hj].
    + rewrite lookup_alter. destruct (w_links w !! i) as [s|]; cbn; [|set_solver]. rewrite elem_of_difference, elem_of_singleton. naive_solver.
    + rewrite lookup_alter_ne by done. naive_solver.
  - intros nd x. rewrite links_to_del. change (links_to (del_link i (PRemote f n) w) nd) with (links_to w nd). rewrite elem_of_list_singleton. naive_solver.
Qed.
Print Assumptions C58_unlink_request.

(** *** The end of a process with remote links: each node with linked processes gets one LinkDown frame,
    with exactly the processes linked there, in which every linked process is named once. *)
Lemma linked_on_elem w a n i : i ∈ linked_on w a n <-> PRemote i n ∈ links_of w a.
Proof.
  unfold linked_on, remote_links, links_of. split.
  - intros H. apply elem_of_list_In, in_map_iff in H as (p & <- & H). apply elem_of_list_In, elem_of_list_filter in H as [Hn H].
    apply elem_of_list_filter in H as [Hl H]. unfold sorted_pids in H. rewrite merge_sort_Permutation, elem_of_elements in H.
    destruct p as [j|j m]; [done|]. cbn in *. by subst m.
  - intros H. apply elem_of_list_In, in_map_iff. exists (PRemote i n). split; [done|].
    apply elem_of_list_In, elem_of_list_filter. split; [done|]. apply elem_of_list_filter. split; [done|].
    unfold sorted_pids. by rewrite merge_sort_Permutation, elem_of_elements.
Qed.
Lemma linked_on_nodup w a n : NoDup (linked_on w a n).
Proof.
  unfold linked_on, remote_links. set (l := sorted_pids (default ∅ (w_links w !! a))).
  assert (NoDup l) as Hl by (unfold l, sorted_pids; rewrite merge_sort_Permutation; apply NoDup_elements). clearbody l.
  induction l as [|p l IH]; [constructor|]. apply NoDup_cons in Hl as [Hp Hl]. rewrite filter_cons. destruct (decide (pid_is_local p = false)) as [Hb|]; [|auto].
  rewrite filter_cons. destruct (decide (pid_node p = n)) as [Hn|]; [|auto]. cbn [map]. apply NoDup_cons. split; [|auto].
  intros H. apply elem_of_list_In, in_map_iff in H as (q & Hq & H). apply elem_of_list_In, elem_of_list_filter in H as [Hqn H]. apply elem_of_list_filter in H as [Hql H].
  apply Hp. destruct p, q; try discriminate. cbn in *. by subst.
Qed.
Lemma nodes_linked_elem w a n : n ∈ nodes_linked w a <-> exists i, PRemote i n ∈ links_of w a.
Proof.
  unfold nodes_linked, sorted_ids. rewrite merge_sort_Permutation, elem_of_elements, elem_of_list_to_set. unfold remote_links, links_of. split.
  - intros H. apply elem_of_list_In, in_map_iff in H as (p & <- & H). apply elem_of_list_In, elem_of_list_filter in H as [Hl H].
    unfold sorted_pids in H. rewrite merge_sort_Permutation, elem_of_elements in H. destruct p as [j|j m]; [done|]. by exists j.
  - intros (i & H). apply elem_of_list_In, in_map_iff. exists (PRemote i n). split; [done|]. apply elem_of_list_In, elem_of_list_filter. split; [done|].
    unfold sorted_pids. by rewrite merge_sort_Permutation, elem_of_elements.
Qed.
Theorem C58_exit_is_reported :
  forall S w a r i n c, occurs S w -> w_regs w !! a = Some r -> PRemote i n ∈ links_of w a ->
    channel_of (without a w) n = Some c -> (forall m, channel_of (without a w) m = Some c -> m = n) ->
    exists w' ls fs, run (call_prog S (CFinish a)) w = Done w' VUnit /\ queued w' c = queued w c ++ fs /\
      filter is_link_down fs = [FLinkDown ls a (final_reason r)] /\
      NoDup ls /\ (forall j, j ∈ ls <-> PRemote j n ∈ links_of w a).
Proof.
  intros S w a r i n c Ho Hr Hm Hc Hu. destruct (drop_frames a w r Hr (occurs_named S w Ho a)) as (w' & E & He).
  exists w', (linked_on w a n). eexists. split; [cbn [call_prog]; unfold ret_as; by rewrite run_bind, E|]. split; [apply He|].
  split; [|split; [apply linked_on_nodup|intros j; apply linked_on_elem]].
  rewrite filter_map_snd. rewrite !list.filter_app.
  rewrite (list_filter_none (fun x => is_link_down (snd x)) (filter _ (withdraw_frames w a))).
  2: { apply Forall_forall. intros x Hx. apply elem_of_list_filter in Hx as [_ Hx]. by apply (withdraw_not w a). }
  rewrite app_nil_r. unfold exit_frames. rewrite !list.filter_app.
  rewrite (list_filter_none (fun x => is_link_down (snd x)) (filter _ (map (fun n => (n, FMonitorDown _ _)) _))).
  2: { apply Forall_forall. intros x Hx. apply elem_of_list_filter in Hx as [_ Hx]. apply elem_of_list_In, in_map_iff in Hx as (y & <- & _). intros []. }
  rewrite app_nil_r. rewrite (filter_frames_one (fun n => FLinkDown (linked_on w a n) a (final_reason r)) _ _ n).
  - rewrite filter_cons_True by done. reflexivity.
  - apply sorted_ids_nodup.
  - apply nodes_linked_elem. by exists i.
  - intros m y. cbn. split; [apply Hu|by intros ->].
Qed.
Print Assumptions C58_exit_is_reported.

(** *** A LinkDown frame: the processes named in it that are linked to the process that ended get
    exactly one signal with its reason; nobody else notices. *)
Theorem C58_link_down :
  forall S nm ad n sup ls a why w, w_nmap w !! NRemote nm ad = Some n ->
    exists w', run (call_prog S (CFrame (NRemote nm ad) sup (FLinkDown ls a why))) w = Done w' VUnit /\
      (forall j, j ∈ ls -> (PRemote a n, j) ∈ links_to w (NRemote nm ad) ->
         w_regs w' !! j = signalled why <$> w_regs w !! j /\
         w_loc w' !! j = after_arrival (match w_regs w !! j with
                                        | Some g => if r_trap g then [ISystem (SExit (PRemote a n) why)] else []
                                        | None => [] end) <$> w_loc w !! j) /\
      (forall j, ~ (j ∈ ls /\ (PRemote a n, j) ∈ links_to w (NRemote nm ad)) -> w_regs w' !! j = w_regs w !! j /\ w_loc w' !! j = w_loc w !! j) /\
      (* the same frame again would find nobody *)
      (forall j, j ∈ ls -> (PRemote a n, j) ∉ links_to w' (NRemote nm ad)).
Proof.
  intros S nm ad n sup ls a why w En. eexists. split; [apply run_frame; by apply run_link_down_frame|].
  destruct (hits (PRemote a n) why (NRemote nm ad) ls w) as (A1 & A2 & A3 & _). split_and!.
  - intros j Hj Hl. split.
    + rewrite A1. by rewrite decide_True.
    + rewrite (A2 j). unfold hit_news. rewrite bool_decide_true by done. reflexivity.
  - intros j Hj. split.
    + rewrite A1. by rewrite decide_False.
    + rewrite (A2 j). unfold hit_news. rewrite bool_decide_false by done. destruct (w_loc w !! j); cbn; [by rewrite after_arrival_nil|done].
  - intros j Hj H. apply A3 in H as [_ H]. apply H. eauto.
Qed.
Print Assumptions C58_link_down.

(** *** The calling side.  A link to a process of a known node: the request leaves, and then, whatever
    the other processes do in whatever order, the frame that says the process ended (or never existed:
    'noproc') makes exactly one exit signal; the same if the connection is lost instead ([C52_link]). *)
Theorem C58_link :
  forall S me i n nm ad w, is_Some (w_regs w !! me) -> lookup_remote n w = Some (nm, ad) ->
    exists w1 m, run (call_prog S (CLink me (PRemote i n))) w = Done w1 VUnit /\
      w_nmap w1 !! NRemote nm ad = Some m /\ emits w1 [(m, FLink true i me)] w w1 /\
    forall s, reach (calls_of S (leaves_remote_link me i (NRemote nm ad))) (Sys w1 []) s ->
    forall sup ls why g l, w_nmap (s_world s) !! NRemote nm ad = Some n -> me ∈ ls ->
      w_regs (s_world s) !! me = Some g -> w_loc (s_world s) !! me = Some l ->
      exists w2, run (call_prog S (CFrame (NRemote nm ad) sup (FLinkDown ls i why))) (s_world s) = Done w2 VUnit /\
        w_regs w2 !! me = Some (signalled why g) /\
        w_loc w2 !! me = Some (after_arrival (if r_trap g then [ISystem (SExit (PRemote i n) why)] else []) l) /\
        (PRemote i n, me) ∉ links_to w2 (NRemote nm ad).
Proof.
  intros S me i n nm ad w Hme Hn. destruct (run_link_remote S me i n nm ad w Hme Hn) as (w1 & m & E & H1 & _ & H3 & H4).
  exists w1, m. split; [done|]. split; [done|]. split; [done|]. intros s Hr sup ls why g l En Hin Hg Hl.
  pose proof (link_stays S me i n (NRemote nm ad) w1 s H1 Hr) as Hs.
  destruct (C58_link_down S nm ad n sup ls i why (s_world s) En) as (w2 & E2 & A1 & _ & A3). exists w2. split; [done|].
  destruct (A1 me Hin Hs) as [B1 B2]. rewrite Hg in B1, B2. rewrite Hl in B2. split; [done|]. split; [done|]. by apply A3.
Qed.
Print Assumptions C58_link.
(** Unlinking: the other node is told, and from then on the end of the other process is ignored. *)
Theorem C58_unlink :
  forall S me i n nm ad w, lookup_remote n w = Some (nm, ad) ->
    exists w1, run (call_prog S (CUnlink me (PRemote i n))) w = Done w1 VUnit /\
      emits w [(n, FLink false i me)] w w1 /\ (PRemote i n, me) ∉ links_to w1 (NRemote nm ad) /\
      w_regs w1 = w_regs w /\ w_loc w1 = w_loc w /\
      forall sup why w2, w_nmap w1 !! NRemote nm ad = Some n ->
        run (call_prog S (CFrame (NRemote nm ad) sup (FLinkDown [me] i why))) w1 = Done w2 VUnit ->
        w_regs w2 !! me = w_regs w1 !! me /\ w_loc w2 !! me = w_loc w1 !! me.
Proof.
  intros S me i n nm ad w Hn.
  destruct (adds_send (FLink false i me) n w) as [A _]. destruct (send_frame_out (FLink false i me) n w) as [_ (o & p & E)].
  set (w0 := send_frame (FLink false i me) n w) in *.
  set (w1 := del_nlinks (NRemote nm ad) [(PRemote i n, me)] w0).
  assert ((PRemote i n, me) ∉ links_to w1 (NRemote nm ad)) as Hnot.
  { unfold w1. rewrite links_to_del. intros [_ H]. apply H. set_solver. }
  exists w1. split_and!.
  - cbn [call_prog]. unfold ret_as. rewrite run_bind. unfold unlink. rewrite decide_False by done. unfold link_destroy. cbn [pid_is_local pid_id pid_node].
    rewrite run_bind, run_modify. fold w0. rewrite run_bind, run_observe.
    assert (lookup_remote n w0 = Some (nm, ad)) as -> by (rewrite E; exact Hn). reflexivity.
  - intros c. specialize (A c). destruct c; exact A.
  - exact Hnot.
  - cbn. by rewrite E.
  - cbn. by rewrite E.
  - intros sup why w2 En E2. destruct (C58_link_down S nm ad n sup [me] i why w1 En) as (w2' & E2' & _ & A2 & _). rewrite E2 in E2'. injection E2' as <-.
    apply A2. tauto.
Qed.
Print Assumptions C58_unlink.

(** *** Both sides together, as in [C56_two_nodes]. *)
Theorem C58_two_nodes :
  forall S (w v : world) me i n nb ab nma ada m supA supB,
    is_Some (w_regs w !! me) -> lookup_remote n w = Some (nb, ab) ->
    w_nmap v !! NRemote nma ada = Some m -> is_Some (w_regs v !! i) ->
    exists w1 fr v1, run (call_prog S (CLink me (PRemote i n))) w = Done w1 VUnit /\
      (exists n', w_nmap w1 !! NRemote nb ab = Some n' /\ emits w1 [(n', fr)] w w1) /\
      run (call_prog S (CFrame (NRemote nma ada) supB fr)) v = Done v1 VUnit /\
      PRemote me m ∈ links_of v1 i /\
      (* [i] ends: [me] is signalled once *)
      (forall v2 r c, occurs S v2 -> PRemote me m ∈ links_of v2 i -> w_regs v2 !! i = Some r ->
        channel_of (without i v2) m = Some c -> (forall x, channel_of (without i v2) x = Some c -> x = m) ->
        exists v3 fs ls, run (call_prog S (CFinish i)) v2 = Done v3 VUnit /\ queued v3 c = queued v2 c ++ fs /\
          filter is_link_down fs = [FLinkDown ls i (final_reason r)] /\
          forall s g l, reach (calls_of S (leaves_remote_link me i (NRemote nb ab))) (Sys w1 []) s ->
            w_nmap (s_world s) !! NRemote nb ab = Some n -> w_regs (s_world s) !! me = Some g -> w_loc (s_world s) !! me = Some l ->
            exists w2, run (call_prog S (CFrame (NRemote nb ab) supA (FLinkDown ls i (final_reason r)))) (s_world s) = Done w2 VUnit /\
              w_regs w2 !! me = Some (signalled (final_reason r) g) /\
              w_loc w2 !! me = Some (after_arrival (if r_trap g then [ISystem (SExit (PRemote i n) (final_reason r))] else []) l)).
Proof.
  intros S w v me i n nb ab nma ada m supA supB Hme Hn Hm Hi.
  destruct (C58_link S me i n nb ab w Hme Hn) as (w1 & n' & E & En & Ee & Ha).
  destruct (C58_request_installed S nma ada m supB i me v Hm Hi) as (v1 & Ev & Hv & _).
  exists w1, (FLink true i me), v1. split; [done|]. split; [by exists n'|]. split; [done|]. split; [done|].
  intros v2 r c Hov Hv2 Hr Hc Hu.
  destruct (C58_exit_is_reported S v2 i r me m c Hov Hr Hv2 Hc Hu) as (v3 & ls & fs & E3 & Eq & Hf & _ & Hin).
  exists v3, fs, ls. split; [done|]. split; [done|]. split; [done|]. intros s g l Hs Hns Hg Hl.
  destruct (Ha s Hs supA ls (final_reason r) g l Hns (proj2 (Hin me) Hv2) Hg Hl) as (w2 & ? & ? & ? & _). by exists w2.
Qed.
Print Assumptions C58_two_nodes.
Example C58_example :
  exists w, proper S0 w /\ PRemote 9 1 ∈ links_of w 1 /\ (PRemote 9 1, 1%N) ∈ links_to w nodeA /\ PRemote 7 1 ∈ links_of w 2 /\
    match run (call_prog S0 (CFrame nodeA (PLocal 3) (FLinkDown [1%N] 9 (RCustom "x")))) w with
    | Done w1 _ => (r_exit <$> w_regs w1 !! 1%N) = Some (Some (RCustom "x")) /\ (r_exit <$> w_regs w1 !! 2%N) = Some None /\
        match run (call_prog S0 (CFinish 2)) w1 with
        | Done w2 _ => queued w2 (inl 4%N) = [FLink true 9 1; FLinkDown [7%N] 2 RNormal]
        | _ => False
        end
    | _ => False
    end.
Proof.
  apply (proper_some S0 (fun w => _ /\ _ /\ _ /\ _) [CSpawn 0 false false; CSpawn 0 false false; CConnect nodeA; CSupervise 3 "a" (SA4 1 5);
    CLink 1 (PRemote 9 1); CFrame nodeA (PLocal 3) (FLink true 2 7)]).
  { repeat constructor. }
  vm_compute. split_and!; auto; apply bool_decide_unpack; vm_compute; exact I.
Qed.

(** ** C59. *)
(** A Send frame with targets [ts]: every process receives the message once per target that means it
    (a live process' id, its name, or an alias of it), in order, and besides that only the notices that
    a one-shot alias is used up; nothing else happens. *)
Theorem C59_send_frame_effect :
  forall S nd sup ts m w, exists w', run (call_prog S (CFrame nd sup (FSend ts m))) w = Done w' VUnit /\
    passes (map (fun t => (target_dest t, IUserRemote m)) ts) [] w w'.
Proof.
  intros S nd sup ts m w.
  assert (exists w', run (forward_send ts m) w = Done w' tt /\ passes (map (fun t => (target_dest t, IUserRemote m)) ts) [] w w') as (w' & E & P).
  { revert w; induction ts as [|t ts IH]; intros w; [exists w; split; [done|apply passes_refl]|].
    destruct (run_deliver (target_dest t) (IUserRemote m) w ltac:(by destruct t)) as (w1 & E1 & P1).
    destruct (IH w1) as (w' & E2 & P2). exists w'. split; [unfold forward_send in *; cbn [each]; by rewrite run_bind, E1|].
    exact (passes_trans _ _ [] [] _ _ _ P1 P2). }
  exists w'. split; [by apply run_frame|done].
Qed.
Print Assumptions C59_send_frame_effect.
Theorem C59_send_frame_once :
  forall S nd sup ts v w w' j l, run (call_prog S (CFrame nd sup (FSend ts (ser S v)))) w = Done w' VUnit ->
    NoDup (filter (fun d => one_shot_alias w d = true) (map target_dest ts)) -> w_loc w !! j = Some l ->
    exists xs, w_loc w' !! j = Some (after_arrival xs l) /\
      length (filter (carries S v) xs) = length (filter (fun t => recipient w (target_dest t) = Some j) ts).
Proof.
  intros S nd sup ts v w w' j l E Hn Hl. destruct (C59_send_frame_effect S nd sup ts (ser S v) w) as (w1 & E1 & P).
  rewrite E in E1. injection E1 as <-. eexists. split; [rewrite (ps_mail _ _ _ _ P), Hl; reflexivity|].
  set (q := map (fun t => (target_dest t, IUserRemote (ser S v))) ts).
  assert (map fst q = map target_dest ts) as Eq by (unfold q; rewrite map_map; done).
  rewrite count_arrivals.
  - rewrite Eq. clear. induction ts as [|t ts IH]; [done|]. cbn [map]. rewrite !filter_cons. destruct (decide (recipient w (target_dest t) = Some j)); cbn [length]; by rewrite IH.
  - apply Forall_forall. intros x Hx. unfold q in Hx. apply elem_of_list_In, in_map_iff in Hx as (t & <- & _). by right.
  - by rewrite Eq.
Qed.
Print Assumptions C59_send_frame_once.
(** A send across two nodes: what [C29_one_frame_per_node] puts in the frame is what arrives. *)
Theorem C59_send_two_nodes :
  forall S ds v w w1 n c nd sup (u : world), run (call_prog S (CSend ds v)) w = Done w1 VUnit ->
    channel_of w1 n = Some c -> (forall m, channel_of w1 m = Some c -> m = n) -> targets_on w1 n (dests_list ds) <> [] ->
    NoDup (filter (fun d => one_shot_alias u d = true) (map target_dest (targets_on w1 n (dests_list ds)))) ->
    exists f u1, queued w1 c = queued w c ++ [f] /\ run (call_prog S (CFrame nd sup f)) u = Done u1 VUnit /\
      forall j l, w_loc u !! j = Some l -> exists xs, w_loc u1 !! j = Some (after_arrival xs l) /\
        length (filter (carries S v) xs) = length (filter (fun t => recipient u (target_dest t) = Some j) (targets_on w1 n (dests_list ds))).
Proof.
  intros S ds v w w1 n c nd sup u E Hc Hu Ht Hn. set (ts := targets_on w1 n (dests_list ds)) in *.
  destruct (C59_send_frame_effect S nd sup ts (ser S v) u) as (u1 & E1 & P).
  exists (FSend ts (ser S v)), u1. split; [|split; [done|]].
  - rewrite (C29_one_frame_per_node S ds v w w1 n c E Hc Hu). fold ts. by destruct ts.
  - intros j l Hl. by eapply C59_send_frame_once.
Qed.
Print Assumptions C59_send_two_nodes.
(** An Exit frame: exactly the documented table, the sender being the remote process (never the target
    itself); ignored if the process does not exist. *)
Theorem C59_exit_frame :
  forall S nm ad n sup i f why w, w_nmap w !! NRemote nm ad = Some n ->
    exists w', run (call_prog S (CFrame (NRemote nm ad) sup (FExit i f why))) w = Done w' VUnit /\
      match w_regs w !! i with
      | None => w' = w
      | Some r =>
          same_elsewhere w w' /\
          match exit_table false (r_trap r) why with
          | Ignored => w' = w
          | Delivered => w_regs w' = w_regs w /\
                         received (fun j => if decide (j = i) then [ISystem (SExit (PRemote f n) why)] else []) w w'
          | Terminated => w_regs w' = <[i := terminated why r]> (w_regs w) /\ w_loc w' = w_loc w
          end
      end.
Proof.
  intros S nm ad n sup i f why w En. exists (exit_op (PLocal i) (PRemote f n) why w). split.
  - apply run_frame. unfold receive_frame. rewrite run_bind, (run_known _ _ _ _ En). reflexivity.
  - destruct (w_regs w !! i) as [r|] eqn:Er.
    + destruct (exit_op_spec i (PRemote f n) why w r Er) as [A1 A2]. split; [exact A1|].
      change (bool_decide (PLocal i = PRemote f n)) with false in A2. destruct (exit_table false (r_trap r) why); tauto.
    + unfold exit_op. cbn [pid_id]. by rewrite Er.
Qed.
Print Assumptions C59_exit_frame.
Example C59_example :
  exists w, proper S0 w /\
    match run (call_prog S0 (CFrame nodeA (PLocal 3) (FSend [TPid 1; TNamed "n"; TPid 99; TAlias 1] ["007"%char]))) w with
    | Done w1 _ => (l_chan <$> w_loc w1 !! 1%N) = Some [IUserRemote ["007"%char]; IUserRemote ["007"%char]; IUserRemote ["007"%char]] /\
        match run (call_prog S0 (CFrame nodeA (PLocal 3) (FExit 2 8 (RCustom "x")))) w1 with
        | Done w2 _ => (r_exit <$> w_regs w2 !! 2%N) = Some (Some (RCustom "x"))
        | _ => False
        end
    | _ => False
    end.
Proof.
  apply (proper_some S0 (fun w => _) [CSpawn 0 false false; CSpawn 0 false false; CConnect nodeA; CSupervise 3 "a" (SA4 1 5);
    CRegister (PLocal 1) "n"; CAlias 1 false]).
  { repeat constructor. }
  vm_compute. auto.
Qed.
