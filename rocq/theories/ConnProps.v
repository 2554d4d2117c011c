(** C51-C54, C60: connections between nodes. *)
From stdpp Require Import base list gmap numbers strings countable sorting relations.
From Coq Require Import Lia.
From Verif Require Import Prog ProgProofs ProgInv Types Mailbox MailboxSpec MailboxProofs World ProcApi NodeApi Api Steps Hist Labels Play SchedSpec SchedProofs
  ProcSpec ProcProofs FreshProofs MonProofs MonLife SendSpec SendProofs NetSpec NetProofs NetExit NetFrames RMonProofs NetLife Persist ConnProofs ConnLasts AllocProofs SchedProps.

Lemma list_filter_none {A} (P : A -> Prop) `{forall x, Decision (P x)} l : Forall (fun x => ~ P x) l -> filter P l = [].
Proof. induction 1 as [|x l Hx _ IH]; [done|]. by rewrite filter_cons_False. Qed.

(** ** C52. *)
Lemma run_sup_down S nd sup w id r : responsible w nd sup id r ->
  exists w', run (call_prog S (CSupDown nd sup)) w = Done w' VUnit /\ connection_lost w nd id r w'.
Proof.
  intros H. destruct (run_supervisor_down nd sup w id r H) as (w' & E & Hc). exists w'. split; [|done].
  cbn [call_prog]. unfold ret_as. rewrite run_bind, E. reflexivity.
Qed.
(** The whole effect of losing the connection of [sup], for all tables: who is signalled, what each
    mailbox receives, which entries go, and that nothing else changes. *)
Theorem C52_connection_lost :
  forall S nd sup w id r, responsible w nd sup id r ->
    exists w', run (call_prog S (CSupDown nd sup)) w = Done w' VUnit /\ connection_lost w nd id r w'.
Proof. exact run_sup_down. Qed.
Print Assumptions C52_connection_lost.

(** *** Links, from the call that makes them, in every schedule *)
Lemma run_link_remote S me i n nm ad w : is_Some (w_regs w !! me) -> lookup_remote n w = Some (nm, ad) ->
  exists w1 m, run (call_prog S (CLink me (PRemote i n))) w = Done w1 VUnit /\
    (PRemote i n, me) ∈ links_to w1 (NRemote nm ad) /\ PRemote i n ∈ default ∅ (w_links w1 !! me) /\
    w_nmap w1 !! NRemote nm ad = Some m /\ emits w1 [(m, FLink true i me)] w w1.
Proof.
  intros [g Hg] Hn.
  set (w0 := add_nlink (NRemote nm ad) (PRemote i n) me (add_link me (PRemote i n) w)).
  destruct (run_call_node nm ad (FLink true i me) w0) as (m & E & Em & Ee).
  exists (send_frame (FLink true i me) m (registers nm ad true w0)), m. split_and!.
  - cbn [call_prog]. unfold ret_as. rewrite run_bind. unfold link. rewrite decide_False by done. unfold link_install, link_create.
    rewrite run_bind, run_bind, run_observe. cbn [pid_id]. unfold exists_proc. rewrite Hg. rewrite bool_decide_true by eauto.
    rewrite run_bind, run_modify. cbn [run negb pid_is_local]. rewrite run_bind, run_observe. cbn [pid_node].
    change (lookup_remote n (add_link me (PRemote i n) w)) with (lookup_remote n w). rewrite Hn.
    rewrite run_bind, run_modify. fold w0. rewrite E. reflexivity.
  - destruct (send_frame_out (FLink true i me) m (registers nm ad true w0)) as [_ (o & p & ->)].
    assert (links_to (registers nm ad true w0) (NRemote nm ad) = links_to w0 (NRemote nm ad)) as H.
    { unfold links_to, registers, node_register_op, spawn_op. repeat case_match; reflexivity. }
    unfold links_to in *. cbn [w_nlinks up_out up_pend]. rewrite H. unfold w0, add_nlink. cbn. rewrite lookup_insert. cbn. set_solver.
  - destruct (send_frame_out (FLink true i me) m (registers nm ad true w0)) as [_ (o & p & ->)].
    assert (w_links (registers nm ad true w0) = w_links w0) as H.
    { unfold registers, node_register_op, spawn_op. repeat case_match; reflexivity. }
    cbn [w_links up_out up_pend]. rewrite H. unfold w0, add_link. cbn. rewrite lookup_insert. cbn. set_solver.
  - exact Em.
  - exact Ee.
Qed.
(** The exit messages from [p] in a list of arrivals. *)
Definition exits_from (p : pid) (x : item) : Prop := match x with ISystem (SExit q _) => q = p | _ => False end.
Global Instance exits_from_dec p x : Decision (exits_from p x).
Proof. destruct x as [| |[]| | | |]; cbn; apply _. Defined.
Lemma served_links_spec w nd x : x ∈ served_links w nd <-> x ∈ links_to w nd.
Proof. unfold served_links. rewrite merge_sort_Permutation. apply elem_of_elements. Qed.
Lemma served_links_nodup w nd : NoDup (served_links w nd).
Proof. unfold served_links. rewrite merge_sort_Permutation. apply NoDup_elements. Qed.
Lemma lost_one_exit w nd me p g : (p, me) ∈ links_to w nd -> w_regs w !! me = Some g ->
  filter (exits_from p) (lost_links w nd me ++ lost_monitors w nd me) = if r_trap g then [ISystem (SExit p lost)] else [].
Proof.
  intros Hin Hg. rewrite list.filter_app.
  assert (filter (exits_from p) (lost_monitors w nd me) = []) as ->.
  { apply list_filter_none, Forall_forall. intros x Hx. unfold lost_monitors in Hx. rewrite Hg in Hx.
    apply elem_of_list_omap in Hx as ([r m] & _ & Hy). destruct m; cbn in Hy; try discriminate; case_decide; try discriminate; injection Hy as <-; intros []. }
  rewrite app_nil_r. unfold lost_links. rewrite Hg. destruct (r_trap g); [|done].
  pose proof (proj2 (served_links_spec w nd _) Hin) as Hs. pose proof (served_links_nodup w nd) as Hn.
  induction (served_links w nd) as [|[q j] l IH]; [set_solver|]. apply NoDup_cons in Hn as [Hn1 Hn2].
  apply elem_of_cons in Hs as [[= <- <-]|Hs].
  - rewrite filter_cons_True by done. cbn [map fst]. rewrite filter_cons_True by done. f_equal.
    apply list_filter_none, Forall_forall. intros x Hx. apply elem_of_list_In, in_map_iff in Hx as ([q j] & <- & Hq). apply elem_of_list_In, elem_of_list_filter in Hq as [Hj Hq]. cbn in Hj. subst j.
    cbn. intros ->. done.
  - rewrite filter_cons. case_decide as Hj; [|by apply IH]. cbn in Hj. subst j. cbn [map fst]. rewrite filter_cons_False; [by apply IH|].
    cbn. intros ->. done.
Qed.
Theorem C52_link :
  forall S me i n nm ad w, is_Some (w_regs w !! me) -> lookup_remote n w = Some (nm, ad) ->
    exists w1, run (call_prog S (CLink me (PRemote i n))) w = Done w1 VUnit /\
    (* any other calls and events, in any schedule, that leave the link alone *)
    forall s, reach (calls_of S (leaves_remote_link me i (NRemote nm ad))) (Sys w1 []) s ->
    forall sup id r g l, responsible (s_world s) (NRemote nm ad) sup id r ->
      w_regs (s_world s) !! me = Some g -> w_loc (s_world s) !! me = Some l ->
      exists w2 xs, run (call_prog S (CSupDown (NRemote nm ad) sup)) (s_world s) = Done w2 VUnit /\
        w_loc w2 !! me = Some (after_arrival xs l) /\
        filter (exits_from (PRemote i n)) xs = (if r_trap g then [ISystem (SExit (PRemote i n) (RCustom "noconnection"))] else []) /\
        w_regs w2 !! me = Some (if r_trap g then g else terminated (RCustom "noconnection") g) /\
        (PRemote i n, me) ∉ links_to w2 (NRemote nm ad) /\ PRemote i n ∉ default ∅ (w_links w2 !! me).
Proof.
  intros S me i n nm ad w Hme Hn. destruct (run_link_remote S me i n nm ad w Hme Hn) as (w1 & m & E & H1 & H2 & _).
  exists w1. split; [exact E|]. intros s Hr sup id r g l Hres Hg Hl.
  pose proof (link_stays S me i n (NRemote nm ad) w1 s H1 Hr) as Hin.
  destruct (run_sup_down S _ _ _ _ _ Hres) as (w2 & E2 & Hc). eexists w2, _. split; [exact E2|].
  split; [rewrite (cl_mail _ _ _ _ _ Hc), Hl; reflexivity|]. split; [by apply lost_one_exit|]. split; [|split].
  - rewrite (cl_signalled _ _ _ _ _ Hc) by (by eexists). rewrite Hg. cbn. unfold signalled. by destruct (r_trap g).
  - unfold links_to. rewrite (cl_nlinks _ _ _ _ _ Hc), lookup_delete. set_solver.
  - intros H. apply (cl_links _ _ _ _ _ Hc) in H as [_ H]. done.
Qed.
Print Assumptions C52_link.

(** *** Monitors, from the call that makes them, in every schedule *)
Theorem C52_process_monitor :
  forall S me d w nm ad i s tgt, occurs S w -> is_Some (w_regs w !! me) -> is_Some (w_loc w !! me) -> remote_dest w d nm ad i s tgt ->
    exists w1 k, run (call_prog S (CMonitor me d)) w = Done w1 (VRef (RLocal k)) /\
    forall s, reach (calls_of S (leaves_remote_monitor k me (NRemote nm ad))) (Sys w1 []) s ->
    forall sup id r, responsible (s_world s) (NRemote nm ad) sup id r ->
      exists w2 l l2, run (call_prog S (CSupDown (NRemote nm ad) sup)) (s_world s) = Done w2 VUnit /\
        w_loc (s_world s) !! me = Some l /\ w_loc w2 !! me = Some l2 /\
        notices k l = [] /\ notices k l2 = [PSys (SProcessDown d (RLocal k) (RCustom "noconnection"))] /\
        monitors_to w2 (NRemote nm ad) !! RLocal k = None.
Proof.
  intros S me d w nm ad i sn tgt Ho Hme Hl Hd. destruct (run_monitor_remote S me d w nm ad i sn tgt Ho Hme Hl Hd) as (w1 & n & E & Hw & _).
  exists w1, (w_next_ref w). split. { cbn [call_prog]. unfold ret_as. rewrite run_bind, E. reflexivity. }
  intros s Hr sup id r Hres. pose proof (reach_rwatching S (w_next_ref w) me (NRemote nm ad) (NMProcess me d) w1 s Hw Hr) as Hs.
  destruct (notified_by_loss _ _ _ _ _ _ _ _ _ Hs Hres ltac:(cbn; by rewrite decide_True)) as (w2 & l & l2 & E2 & El & El2 & N1 & N2 & xs & ys & -> & He & F1 & F2).
  exists w2, l, (after_arrival (xs ++ IProcessDown d (RLocal (w_next_ref w)) lost :: ys) l). split_and!; try done.
  - cbn [call_prog]. unfold ret_as. rewrite run_bind, E2. reflexivity.
  - by apply notices_one.
Qed.
Print Assumptions C52_process_monitor.
Theorem C52_node_monitor :
  forall S me nm ad w, occurs S w -> is_Some (w_regs w !! me) -> is_Some (w_loc w !! me) ->
    exists w1 k, run (call_prog S (CNodeMonitor me (NRemote nm ad))) w = Done w1 (VRef (RLocal k)) /\
    forall s, reach (calls_of S (leaves_remote_monitor k me (NRemote nm ad))) (Sys w1 []) s ->
    forall sup id r, responsible (s_world s) (NRemote nm ad) sup id r ->
      exists w2 l l2, run (call_prog S (CSupDown (NRemote nm ad) sup)) (s_world s) = Done w2 VUnit /\
        w_loc (s_world s) !! me = Some l /\ w_loc w2 !! me = Some l2 /\
        notices k l = [] /\ notices k l2 = [PSys (SNodeDown (NRemote nm ad) (RLocal k))] /\
        monitors_to w2 (NRemote nm ad) !! RLocal k = None.
Proof.
  intros S me nm ad w Ho Hme Hl. destruct (run_node_monitor S me nm ad w Ho Hme Hl) as (w1 & E & Hw).
  exists w1, (w_next_ref w). split. { cbn [call_prog]. unfold ret_as. rewrite run_bind, E. reflexivity. }
  intros s Hr sup id r Hres. pose proof (reach_rwatching S (w_next_ref w) me (NRemote nm ad) (NMNode me) w1 s Hw Hr) as Hs.
  destruct (notified_by_loss _ _ _ _ _ _ _ _ _ Hs Hres ltac:(cbn; by rewrite decide_True)) as (w2 & l & l2 & E2 & El & El2 & N1 & N2 & xs & ys & -> & He & F1 & F2).
  exists w2, l, (after_arrival (xs ++ INodeDown (NRemote nm ad) (RLocal (w_next_ref w)) :: ys) l). split_and!; try done.
  - cbn [call_prog]. unfold ret_as. rewrite run_bind, E2. reflexivity.
  - by apply notices_one_node.
Qed.
Print Assumptions C52_node_monitor.

(** Concrete proper histories. *)
Lemma proper_some S (P : world -> Prop) cs : Forall remote_events cs ->
  match play S cs world0 with Some w => P w | None => False end -> exists w, proper S w /\ P w.
Proof.
  intros Hc H. destruct (play S cs world0) as [w|] eqn:E; [|done]. exists w. split; [|exact H]. exists cs.
  apply play_history in E. clear H. revert Hc. induction E as [w|w cs w1 c w2 Hh IH Hm Hp]; intros Hc; [constructor|].
  apply Forall_app in Hc as [Hc1 Hc2]. apply Forall_cons in Hc2 as [Hc2 _].
  eapply history_snoc; [by apply IH|done|done].
Qed.
Definition nodeA : node := NRemote "a" (SA4 1 5).
(** Process 1 traps exits, process 2 does not; both are linked to process 9 of a connected node, and
    process 1 also monitors it and the node; then the connection is lost. *)
Example C52_example :
  exists w, proper S0 w /\ responsible w nodeA (PLocal 3) 1
      (NReg (Some (PLocal 3)) (Some (PLocal 4)) (Some (PLocal 5)) Connected "a" (SA4 1 5)) /\
    (PRemote 9 1, 1%N) ∈ links_to w nodeA /\ (PRemote 9 1, 2%N) ∈ links_to w nodeA /\
    match run (call_prog S0 (CSupDown nodeA (PLocal 3))) w with
    | Done w' _ =>
        (l_chan <$> w_loc w' !! 1%N) = Some [ISystem (SExit (PRemote 9 1) lost); IProcessDown (DPid (PRemote 9 1)) (RLocal 1) lost; INodeDown nodeA (RLocal 2)] /\
        (r_exit <$> w_regs w' !! 2%N) = Some (Some lost) /\ (r_exit <$> w_regs w' !! 1%N) = Some None
    | _ => False
    end.
Proof.
  apply (proper_some S0 (fun w => _ /\ _ /\ _ /\ _)
    [CSpawn 0 false false; CSpawn 0 false false; CSetFlags 1 true; CConnect nodeA; CSupervise 3 "a" (SA4 1 5);
     CLink 1 (PRemote 9 1); CLink 2 (PRemote 9 1); CMonitor 1 (DPid (PRemote 9 1)); CNodeMonitor 1 nodeA]).
  { repeat constructor. }
  vm_compute. split; [|split; [|split]]; auto; apply bool_decide_unpack; vm_compute; exact I.
Qed.

(** ** C53. *)
(** What forgetting a node does: its entries go, its connection process is killed, and that is all;
    links and monitors on it stay, unnotified. *)
Definition kill_sup (me : N) (r : nreg) (w : world) : world :=
  match n_sup r with
  | Some s => if pid_is_local s then exit_op s (PLocal me) RKill w else send_frame (FExit (pid_id s) me RKill) (pid_node s) w
  | None => w
  end.
Lemma run_forget S me nm ad w id r : w_nmap w !! NRemote nm ad = Some id -> w_nregs w !! id = Some r ->
  run (call_prog S (CForget me (NRemote nm ad))) w =
  Done (kill_sup me r (up_pend (delete (NRemote nm ad)) (up_nregs (delete id) (up_nmap (delete (NRemote nm ad)) w)))) VUnit.
Proof.
  intros E1 E2. cbn [call_prog]. unfold ret_as. rewrite run_bind. unfold forget, node_forget. rewrite run_bind, run_atom. cbn [fst snd]. rewrite E1.
  rewrite run_bind, run_atom. cbn [fst snd]. change (w_nregs (up_nmap (delete (NRemote nm ad)) w)) with (w_nregs w). rewrite E2.
  rewrite run_bind, run_modify. unfold kill_sup. destruct (n_sup r) as [s|]; [|reflexivity]. unfold exit. destruct (pid_is_local s); rewrite run_modify; reflexivity.
Qed.
Lemma kill_sup_keeps me r w : w_loc (kill_sup me r w) = w_loc w /\ w_nlinks (kill_sup me r w) = w_nlinks w /\
  w_nmons (kill_sup me r w) = w_nmons w /\ w_nmap (kill_sup me r w) = w_nmap w /\ w_links (kill_sup me r w) = w_links w /\
  w_mons (kill_sup me r w) = w_mons w /\
  forall i, n_sup r <> Some (PLocal i) -> w_regs (kill_sup me r w) !! i = w_regs w !! i.
Proof.
  unfold kill_sup. destruct (n_sup r) as [[s|i n]|]; cbn [pid_is_local].
  - unfold exit_op; cbn [pid_id]. destruct (w_regs w !! s) as [g|]; [|done]. split_and!; try reflexivity. intros i Hi. cbn. rewrite lookup_insert_ne; [done|]. congruence.
  - unfold send_frame, hand_out. repeat case_match; split_and!; try reflexivity; done.
  - done.
Qed.
Lemma run_down_unknown S nd p w : w_nmap w !! nd = None -> run (call_prog S (CSupDown nd p)) w = Done w VUnit.
Proof.
  intros E. cbn [call_prog]. unfold ret_as. rewrite run_bind. unfold supervisor_down. rewrite run_bind, run_atom. unfold sup_down_op. rewrite E. reflexivity.
Qed.
Theorem C53_forget_is_silent_partial :
  forall S me nm ad w id r, w_nmap w !! NRemote nm ad = Some id -> w_nregs w !! id = Some r ->
    exists w', run (call_prog S (CForget me (NRemote nm ad))) w = Done w' VUnit /\
      w_loc w' = w_loc w /\ (forall i, n_sup r <> Some (PLocal i) -> w_regs w' !! i = w_regs w !! i) /\
      links_to w' (NRemote nm ad) = links_to w (NRemote nm ad) /\ monitors_to w' (NRemote nm ad) = monitors_to w (NRemote nm ad) /\
      w_nmap w' !! NRemote nm ad = None /\
      (* and the end of the killed connection process changes nothing either *)
      forall p, run (call_prog S (CSupDown (NRemote nm ad) p)) w' = Done w' VUnit.
Proof.
  intros S me nm ad w id r E1 E2. eexists. split; [by apply run_forget|].
  set (w0 := up_pend (delete (NRemote nm ad)) (up_nregs (delete id) (up_nmap (delete (NRemote nm ad)) w))).
  destruct (kill_sup_keeps me r w0) as (K1 & K2 & K3 & K4 & _ & _ & K7). split; [by rewrite K1|]. split; [by intros i Hi; rewrite K7|].
  unfold links_to, monitors_to. rewrite K2, K3, K4. split; [done|]. split; [done|].
  assert (w_nmap (kill_sup me r w0) !! NRemote nm ad = None) as En by (rewrite K4; cbn; apply lookup_delete).
  split; [by rewrite <- K4|]. intros p. by apply run_down_unknown.
Qed.
Print Assumptions C53_forget_is_silent_partial.
(** The same for stopping the local node: every remote node is dropped from the tables at once, only
    the local node's own process is killed. *)
Theorem C53_stop_is_silent_partial :
  forall S me w r p0, is_Some (w_nmap w !! NLocal) -> w_nregs w !! LOCAL_NODE_ID = Some r -> n_sup r = Some (PLocal p0) ->
    exists w', run (call_prog S (CNodeStop me)) w = Done w' VUnit /\
      w_loc w' = w_loc w /\ (forall i, i <> p0 -> w_regs w' !! i = w_regs w !! i) /\
      w_nlinks w' = w_nlinks w /\ w_nmons w' = w_nmons w /\ w_nmap w' = ∅ /\
      forall nd p, run (call_prog S (CSupDown nd p)) w' = Done w' VUnit.
Proof.
  intros S me w r p0 [i Hi] Er Es.
  set (w1 := up_nmap (fun _ => ∅) (up_nmap (delete NLocal) w)).
  set (w2 := exit_op (PLocal p0) (PLocal me) RKill w1).
  exists (up_pend (fun _ => ∅) (up_nregs (fun _ => ∅) w2)).
  assert (w_nmap w2 = ∅ /\ w_nlinks w2 = w_nlinks w /\ w_nmons w2 = w_nmons w /\ w_loc w2 = w_loc w /\
    forall j, j <> p0 -> w_regs w2 !! j = w_regs w !! j) as (K1 & K2 & K3 & K4 & K5).
  { unfold w2. unfold exit_op. cbn [pid_id]. destruct (w_regs w1 !! p0) as [g|]; [|split_and!; done].
    split_and!; try done. intros j Hj. cbn. by rewrite lookup_insert_ne. }
  split; [|split_and!; try done].
  - cbn [call_prog]. unfold ret_as. rewrite run_bind. unfold node_stop. rewrite run_bind, run_atom. cbn [fst snd]. rewrite Hi.
    rewrite run_bind, run_modify, run_bind, run_modify. fold w1. change (w_nregs w1) with (w_nregs w). rewrite Er, Es. fold w2.
    rewrite run_bind, run_modify, run_modify. reflexivity.
  - intros nd p. apply run_down_unknown. cbn. rewrite K1. apply lookup_empty.
Qed.
Print Assumptions C53_stop_is_silent_partial.

(** The property itself: a linked process that does not trap exits is terminated, by the time the
    call and the end of the connection's process are over. *)
Definition C53_statement (S : serde) (stop : N -> node -> call) : Prop :=
  forall w me nm ad w1 sup w2 p j g, proper S w -> made_by_running (stop me (NRemote nm ad)) w ->
    happens S (stop me (NRemote nm ad)) w w1 -> happens S (CSupDown (NRemote nm ad) sup) w1 w2 ->
    established w (NRemote nm ad) sup -> (p, j) ∈ links_to w (NRemote nm ad) -> w_regs w !! j = Some g -> r_trap g = false ->
    exists g', w_regs w2 !! j = Some g' /\ r_exit g' = Some lost.
Lemma C53_world :
  exists w, proper S0 w /\ made_by_running (CForget 1 nodeA) w /\ made_by_running (CNodeStop 1) w /\
    w_nmap w !! nodeA = Some 1%N /\ w_nregs w !! 1%N = Some (NReg (Some (PLocal 3)) (Some (PLocal 4)) (Some (PLocal 5)) Connected "a" (SA4 1 5)) /\
    is_Some (w_nmap w !! NLocal) /\ w_nregs w !! LOCAL_NODE_ID = Some (NReg (Some (PLocal 2)) None None Current "me" (SA4 9 9)) /\
    (PRemote 9 1, 1%N) ∈ links_to w nodeA /\ w_regs w !! 1%N = Some (Reg None false None false).
Proof.
  apply (proper_some S0 (fun w => _ /\ _ /\ _ /\ _ /\ _ /\ _ /\ _ /\ _)
    [CSpawn 0 false false; CNodeStart "me" (SA4 9 9); CConnect nodeA; CSupervise 3 "a" (SA4 1 5); CLink 1 (PRemote 9 1)]).
  { repeat constructor. }
  vm_compute. split_and!; eauto; try reflexivity.
Qed.
Theorem C53_forget_refuted : ~ C53_statement S0 CForget.
Proof.
  intros H. destruct C53_world as (w & Hp & Hm & _ & E1 & E2 & _ & _ & Hl & Hg).
  destruct (C53_forget_is_silent_partial S0 1 "a" (SA4 1 5) w _ _ E1 E2) as (w1 & Er & _ & K & _ & _ & _ & Hd).
  destruct (H w 1%N "a" (SA4 1 5) w1 (PLocal 3) w1 (PRemote 9 1) 1%N (Reg None false None false) Hp Hm) as (g & Hg' & He).
  - eapply happens_done, Er.
  - eapply happens_done, Hd.
  - unfold established, entry. fold nodeA. rewrite E1. eexists. split; [exact E2|]. done.
  - exact Hl.
  - exact Hg.
  - done.
  - rewrite K in Hg' by done. rewrite Hg in Hg'. injection Hg' as <-. discriminate.
Qed.
Print Assumptions C53_forget_refuted.
Theorem C53_stop_refuted : ~ C53_statement S0 (fun me _ => CNodeStop me).
Proof.
  intros H. destruct C53_world as (w & Hp & _ & Hm & E1 & E2 & E3 & E4 & Hl & Hg).
  destruct (C53_stop_is_silent_partial S0 1 w _ _ E3 E4 eq_refl) as (w1 & Er & _ & K & _ & _ & _ & Hd).
  destruct (H w 1%N "a" (SA4 1 5) w1 (PLocal 3) w1 (PRemote 9 1) 1%N (Reg None false None false) Hp Hm) as (g & Hg' & He).
  - eapply happens_done, Er.
  - eapply happens_done, Hd.
  - unfold established, entry. fold nodeA. rewrite E1. eexists. split; [exact E2|]. done.
  - exact Hl.
  - exact Hg.
  - done.
  - rewrite K in Hg' by done. rewrite Hg in Hg'. injection Hg' as <-. discriminate.
Qed.
Print Assumptions C53_stop_refuted.

(** ** C54. *)
Lemma proper_mapped S w nm ad : proper S w -> forall id, w_nmap w !! NRemote nm ad = Some id -> is_Some (w_nregs w !! id).
Proof. intros Hp id E. destruct (tables_entry w nm ad id (proper_tables S w Hp) E) as (r & Hr & _). eauto. Qed.
(** A connection is accepted exactly if none is established. *)
Theorem C54_accepts_iff_free :
  forall S w me nm ad, proper S w ->
    ((exists w' v, run (call_prog S (CSupervise me nm ad)) w = Done w' v) <-> ~ exists s, established w (NRemote nm ad) s).
Proof.
  intros S w me nm ad Hp. split.
  - intros (w' & v & E) [s Hs]. rewrite run_supervise, (accept_refused nm ad _ _ w s Hs) in E. discriminate.
  - intros Hn. destruct (accept_ok nm ad (PLocal me) (PLocal me) w Hn (proper_mapped S w nm ad Hp)) as (w1 & id & r & E & _).
    rewrite run_supervise, E. eauto.
Qed.
Print Assumptions C54_accepts_iff_free.
(** A refused one panics and has changed nothing. *)
Theorem C54_refused :
  forall S w me nm ad s, established w (NRemote nm ad) s ->
    run (call_prog S (CSupervise me nm ad)) w = Panicked w "Not accepting node supervisor!".
Proof. intros S w me nm ad s Hs. by rewrite run_supervise, (accept_refused nm ad _ _ w s Hs). Qed.
Print Assumptions C54_refused.
(** An accepted one is the node's connection from then on; a process that was still dialling is killed,
    no other process is. *)
Theorem C54_accepted :
  forall S w me nm ad w' v, proper S w -> run (call_prog S (CSupervise me nm ad)) w = Done w' v ->
    established w' (NRemote nm ad) (PLocal me) /\
    (forall i g, dialling w (NRemote nm ad) (PLocal i) -> i <> me -> w_regs w !! i = Some g -> w_regs w' !! i = Some (terminated RKill g)) /\
    (forall i g, (forall s, dialling w (NRemote nm ad) s -> s = PLocal me \/ pid_id s <> i) -> w_regs w !! i = Some g -> w_regs w' !! i = Some g).
Proof.
  intros S w me nm ad w' v Hp E. pose proof (proper_mapped S w nm ad Hp) as Hm.
  assert (~ exists s, established w (NRemote nm ad) s) as Hn by (apply (C54_accepts_iff_free S w me nm ad Hp); eauto).
  destruct (accept_ok nm ad (PLocal me) (PLocal me) w Hn Hm) as (w1 & id & r & Ea & E1 & E2 & E3 & E4 & E5 & E6 & E7 & E8 & E9 & E10 & _).
  rewrite run_supervise, Ea in E. cbn [snd fst] in E. injection E as <- <-.
  destruct (workers_spec me nm ad w1 id r E1 E2) as (W1 & W2 & _ & _ & W5 & _). cbn zeta in *.
  assert (allots w) as [Hal _]. { apply (occurs_allots S), seq_occurs, (proper_seq S), Hp. }
  assert (forall i, is_Some (w_regs w !! i) -> w_regs (workers me (NRemote nm ad) w1) !! i = w_regs w1 !! i) as Hk.
  { intros i Hi. apply Hal in Hi. rewrite W5, E7. by rewrite !lookup_insert_ne by lia. }
  split; [|split].
  - unfold established, entry. rewrite W1, E1, W2, lookup_insert. eexists. split; [reflexivity|]. cbn. rewrite E3, E4. done.
  - intros i g Hd Hi Hg. rewrite Hk by eauto. by apply (E9 (PLocal i) g Hd ltac:(congruence)).
  - intros i g Hd Hg. rewrite Hk by eauto. by rewrite E10.
Qed.
Print Assumptions C54_accepted.
(** Once accepted, the connection is the node's only one in every schedule of calls that do not end
    it: it stays on record and every other attempt is refused, whenever it comes. *)
Lemma accepted_record S w me nm ad w' v : proper S w -> run (call_prog S (CSupervise me nm ad)) w = Done w' v ->
  exists id s, v = VWorkers (PLocal s) (PLocal (N.succ s)) /\ s = w_next_pid w /\
    on_record nm ad id (PLocal me) Connected (Some (PLocal s)) (default [] (w_pend w !! NRemote nm ad)) w' /\
    w_out w' !! s = Some (default [] (w_pend w !! NRemote nm ad)) /\ w_pend w' !! NRemote nm ad = None /\ is_Some (w_regs w' !! s).
Proof.
  intros Hp E. pose proof (proper_mapped S w nm ad Hp) as Hm.
  assert (~ exists s, established w (NRemote nm ad) s) as Hn by (apply (C54_accepts_iff_free S w me nm ad Hp); eauto).
  pose proof (tables_call S (CSupervise me nm ad) w I (proper_tables S w Hp)) as Ht. rewrite E in Ht. cbn [out_world] in Ht.
  destruct (accept_ok nm ad (PLocal me) (PLocal me) w Hn Hm) as (w1 & id & r & Ea & E1 & E2 & E3 & E4 & E5 & E6 & E7 & E8 & E9 & E10 & _).
  rewrite run_supervise, Ea in E. cbn [snd fst] in E. injection E as <- <-.
  destruct (workers_spec me nm ad w1 id r E1 E2) as (W1 & W2 & W3 & W4 & W5 & _). cbn zeta in *.
  assert (w_out w !! w_next_pid w = None) as Ho.
  { destruct (w_out w !! w_next_pid w) eqn:Eo; [|done]. exfalso.
    pose proof (proj2 (occurs_allots S w (seq_occurs S w (proper_seq S w Hp))) (w_next_pid w) ltac:(eauto)). lia. }
  rewrite E7 in *. rewrite E6, E5, Ho in W4. cbn [from_option] in W4. unfold Datatypes.id in W4. rewrite app_nil_l in W4.
  exists id, (w_next_pid w). split; [done|]. split; [done|]. split; [|split; [|split]].
  - destruct (tables_entry _ nm ad id Ht ltac:(by rewrite W1)) as (r' & Hr' & _ & Hn' & Ha' & Hs' & Hi').
    constructor.
    + by rewrite W1.
    + intros nd' Hnd. destruct (to_map _ Ht _ _ Hnd) as (r1 & Hr1 & Hx). rewrite Hr' in Hr1. injection Hr1 as <-.
      destruct nd' as [|n a]; [tauto|]. destruct Hx as (_ & <- & <- & _). by rewrite Hn', Ha'.
    + split; [|by eapply (to_below _ Ht)]. unfold LOCAL_NODE_ID in Hi'. lia.
    + exists r'. split; [done|]. rewrite W2, lookup_insert in Hr'. injection Hr' as <-. cbn in *. done.
    + unfold stream. cbn. rewrite W4, lookup_insert. done.
  - by rewrite W4, lookup_insert.
  - by rewrite W3, lookup_delete.
  - rewrite W5. rewrite lookup_insert_ne by lia. rewrite lookup_insert. eauto.
Qed.
Lemma recorded_established nm ad id p so q w : on_record nm ad id p Connected so q w -> established w (NRemote nm ad) p.
Proof. intros [A _ _ (r & Hr & H1 & H2 & _) _]. exists r. unfold entry. rewrite A. split_and!; [done|done|]. by rewrite H2. Qed.
Theorem C54_only_connection :
  forall S w me nm ad w' v, proper S w -> run (call_prog S (CSupervise me nm ad)) w = Done w' v ->
    forall s, reach (calls_of S (keeps_connection (NRemote nm ad) me)) (Sys w' []) s ->
      established (s_world s) (NRemote nm ad) (PLocal me) /\
      forall me', run (call_prog S (CSupervise me' nm ad)) (s_world s) = Panicked (s_world s) "Not accepting node supervisor!".
Proof.
  intros S w me nm ad w' v Hp E s Hr. destruct (accepted_record S w me nm ad w' v Hp E) as (id & sn & _ & _ & Hrec & _).
  assert (established (s_world s) (NRemote nm ad) (PLocal me)) as He.
  { eapply recorded_established, (record_lasts S nm ad id (PLocal me) Connected (Some (PLocal sn)) _ ltac:(eauto) w' s Hrec).
    eapply rtc_subrel; [|exact Hr]. intros s1 s2 Hs. destruct Hs as [i s1 s2 Ht|p s1 (c & Hc & ->)]; [by eapply step_tick|].
      apply step_call. exists c. split; [|done]. destruct c; try exact I; cbn in *; auto. }
  split; [done|]. intros me'. by eapply C54_refused.
Qed.
Print Assumptions C54_only_connection.
(** Connecting to a node that is connected or being dialled does nothing. *)
Theorem C54_connect_twice :
  forall S w nm ad p, established w (NRemote nm ad) p \/ dialling w (NRemote nm ad) p ->
    run (call_prog S (CConnect (NRemote nm ad))) w = Done w VUnit.
Proof.
  intros S w nm ad p H. assert (exists r, entry w (NRemote nm ad) = Some r /\ n_sup r = Some p) as (r & Hr & Hs) by (destruct H as [(r & ? & ? & _)|(r & ? & ? & _)]; eauto).
  unfold entry in Hr. cbn [call_prog]. unfold ret_as, node_connect. rewrite run_bind, run_bind. cbn [node_register]. rewrite run_atom. unfold node_register_op.
  destruct (w_nmap w !! NRemote nm ad) as [id|]; [|done]. rewrite Hr, Hs. reflexivity.
Qed.
Print Assumptions C54_connect_twice.
(** Otherwise it starts exactly one new process, which is then dialling. *)
Theorem C54_connect_dials :
  forall S w nm ad, proper S w -> (forall p, ~ established w (NRemote nm ad) p /\ ~ dialling w (NRemote nm ad) p) ->
    exists w', run (call_prog S (CConnect (NRemote nm ad))) w = Done w' VUnit /\
      dialling w' (NRemote nm ad) (PLocal (w_next_pid w)) /\ w_regs w' = <[w_next_pid w := new_reg]> (w_regs w).
Proof.
  intros S w nm ad Hp Hn. cbn [call_prog]. unfold ret_as, node_connect. rewrite run_bind, run_bind. cbn [node_register]. rewrite run_atom. unfold node_register_op.
  destruct (w_nmap w !! NRemote nm ad) as [id|] eqn:E.
  - destruct (tables_entry w nm ad id (proper_tables S w Hp) E) as (r & Hr & He & _). rewrite Hr.
    destruct (n_sup r) as [p|] eqn:Es.
    { exfalso. destruct (Hn p) as [H1 H2]. destruct (decide (n_state r = Pending)); [apply H2 | apply H1]; exists r; done. }
    eexists. split; [reflexivity|]. split; [|reflexivity]. unfold dialling, entry, spawn_op. cbn. rewrite E, lookup_insert. eexists. split; [reflexivity|]. done.
  - eexists. split; [reflexivity|]. split; [|reflexivity]. unfold dialling, entry. cbn. rewrite lookup_insert, lookup_insert. eexists. split; [reflexivity|]. done.
Qed.
Print Assumptions C54_connect_dials.
(** The end of a process that is not (or no longer) the node's changes nothing. *)
Theorem C54_stale_end :
  forall S w nm ad p q, established w (NRemote nm ad) p \/ dialling w (NRemote nm ad) p -> q <> p ->
    run (call_prog S (CSupDown (NRemote nm ad) q)) w = Done w VUnit.
Proof.
  intros S w nm ad p q H Hq. assert (exists r, entry w (NRemote nm ad) = Some r /\ n_sup r = Some p) as (r & Hr & Hs) by (destruct H as [(r & ? & ? & _)|(r & ? & ? & _)]; eauto).
  unfold entry in Hr. cbn [call_prog]. unfold ret_as. rewrite run_bind. unfold supervisor_down. rewrite run_bind, run_atom. unfold sup_down_op.
  destruct (w_nmap w !! NRemote nm ad) as [id|]; [|done]. rewrite Hr, Hs. rewrite bool_decide_true by (intros <-; done). reflexivity.
Qed.
Print Assumptions C54_stale_end.
(** Process 1 is dialling the node when process 2 is accepted: 1 is killed, 3 is refused, and the end
    of 1 leaves the connection of 2 alone. *)
Example C54_example :
  exists w, proper S0 w /\ dialling w nodeA (PLocal 1) /\
    match run (call_prog S0 (CSupervise 2 "a" (SA4 1 5))) w with
    | Done w1 _ => (r_exit <$> w_regs w1 !! 1%N) = Some (Some RKill) /\ (n_sup <$> entry w1 nodeA) = Some (Some (PLocal 2)) /\
                   match run (call_prog S0 (CSupervise 3 "a" (SA4 1 5))) w1 with Panicked _ m => m = "Not accepting node supervisor!" | _ => False end
    | _ => False
    end.
Proof.
  apply (proper_some S0 (fun w => _ /\ _) [CConnect nodeA; CSpawn 0 false false; CSpawn 0 false false]); [repeat constructor|].
  vm_compute. eauto 10.
Qed.

(** ** C60. *)
Theorem C60_list :
  forall S w, proper S w -> exists l, run (call_prog S CNodeList) w = Done w (VNodes l) /\ NoDup l /\
    forall nd, nd ∈ l <-> nd <> NLocal /\ is_Some (entry w nd).
Proof.
  intros S w Hp. eexists. split; [reflexivity|]. split.
  - apply NoDup_filter, NoDup_fst_map_to_list.
  - intros nd. etransitivity; [apply elem_of_list_filter|]. apply and_iff_compat_l. unfold entry. split.
    + intros H. apply elem_of_list_fmap in H as ([nd' id] & -> & Hin). apply elem_of_map_to_list in Hin. cbn [fst]. rewrite Hin.
      destruct (to_map _ (proper_tables S w Hp) _ _ Hin) as (r & Hr & _). eauto.
    + intros H. destruct (w_nmap w !! nd) as [id|] eqn:E; [|by destruct H]. apply elem_of_list_fmap. exists (nd, id). split; [done|]. by apply elem_of_map_to_list.
Qed.
Print Assumptions C60_list.
Theorem C60_list_by_state :
  forall S w st, proper S w -> st <> Current -> exists l, run (call_prog S (CNodeListBy st)) w = Done w (VNodes l) /\ NoDup l /\
    forall nd, nd ∈ l <-> nd <> NLocal /\ exists r, entry w nd = Some r /\ n_state r = st.
Proof.
  intros S w st Hp Hst. pose proof (proper_tables S w Hp) as Ht. eexists. split; [reflexivity|]. split.
  - assert (NoDup (filter (fun x => n_state (snd x) = st) (map_to_list (w_nregs w)))) as Hn by (apply NoDup_filter, NoDup_map_to_list).
    assert (forall x, x ∈ filter (fun x => n_state (snd x) = st) (map_to_list (w_nregs w)) -> w_nmap w !! NRemote (n_name (snd x)) (n_addr (snd x)) = Some (fst x) /\ w_nregs w !! fst x = Some (snd x)) as Hx.
    { intros [id r] Hin. apply elem_of_list_filter in Hin as [Hs Hin]. apply elem_of_map_to_list in Hin. cbn in *. split; [|done].
      pose proof (to_reg _ Ht _ _ Hin) as H. by rewrite decide_False in H by congruence. }
    induction (filter _ (map_to_list (w_nregs w))) as [|[id r] l IH]; [constructor|]. cbn [map]. apply NoDup_cons in Hn as [Hn1 Hn2]. apply NoDup_cons. split.
    + intros H. apply elem_of_list_In, in_map_iff in H as ([id' r'] & Heq & Hin). cbn in Heq. injection Heq as E1 E2. apply elem_of_list_In in Hin.
      destruct (Hx (id, r) ltac:(set_solver)) as [A1 A2]. destruct (Hx (id', r') ltac:(set_solver)) as [B1 B2]. cbn in *.
      rewrite E1, E2, A1 in B1. injection B1 as ->. rewrite A2 in B2. injection B2 as ->. done.
    + apply IH; [done|]. intros x Hin. apply Hx. set_solver.
  - intros nd. split.
    + intros H. apply elem_of_list_In, in_map_iff in H as ([id r] & <- & Hin). apply elem_of_list_In, elem_of_list_filter in Hin as [Hs Hin].
      apply elem_of_map_to_list in Hin. cbn in *. split; [done|]. exists r. split; [|done].
      pose proof (to_reg _ Ht _ _ Hin) as H. rewrite decide_False in H by congruence. unfold entry. by rewrite H.
    + intros (Hnd & r & He & Hs). unfold entry in He. destruct (w_nmap w !! nd) as [id|] eqn:E; [|done].
      destruct (to_map _ Ht _ _ E) as (r' & Hr' & Hm). rewrite He in Hr'. injection Hr' as <-. destruct nd as [|n a]; [done|]. destruct Hm as (_ & <- & <- & _).
      apply elem_of_list_In, in_map_iff. exists (id, r). split; [done|]. apply elem_of_list_In, elem_of_list_filter. split; [done|]. by apply elem_of_map_to_list.
Qed.
Print Assumptions C60_list_by_state.
(** Disconnecting leaves a registered node known, without a connection, and listed as such. *)
Theorem C60_disconnect :
  forall S w me nm ad, proper S w -> is_Some (entry w (NRemote nm ad)) ->
    exists w', run (call_prog S (CDisconnect me (NRemote nm ad))) w = Done w' VUnit /\
      (exists r, entry w' (NRemote nm ad) = Some r /\ n_state r = Known /\ n_sup r = None) /\
      (forall nd, nd <> NRemote nm ad -> entry w' nd = entry w nd) /\
      (forall i g, established w (NRemote nm ad) (PLocal i) \/ dialling w (NRemote nm ad) (PLocal i) -> w_regs w !! i = Some g ->
         w_regs w' !! i = Some (terminated RKill g)).
Proof.
  intros S w me nm ad Hp [r He]. pose proof (proper_tables S w Hp) as Ht. unfold entry in He. destruct (w_nmap w !! NRemote nm ad) as [id|] eqn:E; [|done].
  set (w1 := match n_sup r with Some s => exit_op s (PLocal me) RKill (up_pend (delete (NRemote nm ad)) w) | None => up_pend (delete (NRemote nm ad)) w end).
  set (r' := NReg None (n_sender r) (n_receiver r) Known (n_name r) (n_addr r)).
  exists (up_nregs (<[id := r']>) w1). split; [|split; [|split]].
  - cbn [call_prog]. unfold ret_as, node_disconnect. rewrite run_bind, run_modify. unfold node_disconnect_op. rewrite E, He. reflexivity.
  - exists r'. split; [|done]. unfold entry.
    assert (w_nmap w1 = w_nmap w) as En. { unfold w1. destruct (n_sup r) as [s|]; [|done]. apply (exit_op_nodes s (PLocal me) RKill (up_pend (delete (NRemote nm ad)) w)). }
    cbn. rewrite En, E, lookup_insert. done.
  - intros nd Hnd. unfold entry.
    assert (w_nmap w1 = w_nmap w /\ w_nregs w1 = w_nregs w) as [En Er].
    { unfold w1. destruct (n_sup r) as [s|]; [|done]. destruct (exit_op_nodes s (PLocal me) RKill (up_pend (delete (NRemote nm ad)) w)) as (A & B & _). done. }
    cbn. rewrite En, Er. destruct (w_nmap w !! nd) as [id'|] eqn:E'; [|done]. rewrite lookup_insert_ne; [done|]. intros <-. apply Hnd.
    destruct (to_map _ Ht _ _ E') as (r1 & Hr1 & Hm). rewrite He in Hr1. injection Hr1 as <-.
    destruct (to_map _ Ht _ _ E) as (r2 & Hr2 & H0 & Hn & Ha & Hc). rewrite He in Hr2. injection Hr2 as <-.
    destruct nd as [|n a]; [tauto|]. destruct Hm as (_ & <- & <- & _). by rewrite Hn, Ha.
  - intros i g Hi Hg. assert (n_sup r = Some (PLocal i)) as Hs.
    { destruct Hi as [(r1 & H1 & H2 & _)|(r1 & H1 & H2 & _)]; unfold entry in H1; rewrite E, He in H1; injection H1 as <-; done. }
    unfold w1. rewrite Hs. unfold exit_op; cbn. rewrite Hg. cbn. by rewrite lookup_insert.
Qed.
Print Assumptions C60_disconnect.
(** The state of the local node is answered with a remote one: list_by_state(Current) names the local
    node by its name and address. *)
Theorem C60_current :
  forall S w nm ad p, proper S w -> entry w NLocal = Some (NReg p None None Current nm ad) ->
    exists l, run (call_prog S (CNodeListBy Current)) w = Done w (VNodes l) /\ l = [NRemote nm ad].
Proof.
  intros S w nm ad p Hp He. pose proof (proper_tables S w Hp) as Ht. eexists. split; [reflexivity|].
  unfold entry in He. destruct (w_nmap w !! NLocal) as [id|] eqn:E; [|done].
  assert (forall x, x ∈ filter (fun x => n_state (snd x) = Current) (map_to_list (w_nregs w)) <-> x = (id, NReg p None None Current nm ad)) as Hx.
  { intros [i r]. rewrite elem_of_list_filter, elem_of_map_to_list. cbn. split.
    - intros [Hs Hr]. pose proof (to_reg _ Ht _ _ Hr) as H. rewrite decide_True in H by done. rewrite E in H. injection H as <-. rewrite He in Hr. by injection Hr as <-.
    - intros [= -> ->]. done. }
  assert (NoDup (filter (fun x => n_state (snd x) = Current) (map_to_list (w_nregs w)))) as Hn by (apply NoDup_filter, NoDup_map_to_list).
  destruct (filter _ (map_to_list (w_nregs w))) as [|x l]; [pose proof (proj2 (Hx (id, NReg p None None Current nm ad)) eq_refl) as Hz; by apply elem_of_nil in Hz|].
  assert (x = (id, NReg p None None Current nm ad)) as -> by (apply Hx; set_solver).
  destruct l as [|y l]; [done|]. assert (y = (id, NReg p None None Current nm ad)) as -> by (apply Hx; set_solver).
  apply NoDup_cons in Hn as [Hn _]. set_solver.
Qed.
Print Assumptions C60_current.
Example C60_example :
  exists w, proper S0 w /\ entry w nodeA = Some (NReg None None None Known "a" (SA4 1 5)) /\
    match run (call_prog S0 CNodeList) w with Done _ v => v = VNodes [nodeA; NRemote "b" (SA4 1 6)] \/ v = VNodes [NRemote "b" (SA4 1 6); nodeA] | _ => False end.
Proof.
  apply (proper_some S0 (fun w => _ /\ _) [CNodeStart "me" (SA4 9 9); CSpawn 0 false false; CConnect nodeA; CConnect (NRemote "b" (SA4 1 6)); CDisconnect 2 nodeA]); [repeat constructor|].
  vm_compute. auto.
Qed.

(** ** C51. *)
(** One frame for node [n]: it goes to the end of the queue that frames for [n] go to; if there is
    none (the node is unknown, or known without a connection), nothing happens. *)
Theorem C51_frame_goes_last :
  forall S w me i n why, exists w', run (call_prog S (CExit me (PRemote i n) why)) w = Done w' VUnit /\
    forall c, queued w' c = queued w c ++ (if decide (channel_of w n = Some c) then [FExit i me why] else []).
Proof.
  intros S w me i n why. exists (send_frame (FExit i me why) n w). split; [reflexivity|]. intros c. destruct (adds_send (FExit i me why) n w) as [H _].
  rewrite (H c). f_equal. rewrite filter_cons. cbn [fst]. by case_decide.
Qed.
Print Assumptions C51_frame_goes_last.
Theorem C51_where_frames_go :
  forall w nm ad id r, w_nmap w !! NRemote nm ad = Some id -> entry w (NRemote nm ad) = Some r -> n_name r = nm -> n_addr r = ad ->
    (n_state r = Known -> n_sender r = None -> channel_of w id = None) /\
    (n_state r = Pending -> n_sender r = None -> channel_of w id = Some (inr (NRemote nm ad))) /\
    (forall s, n_sender r = Some (PLocal s) -> is_Some (w_regs w !! s) -> channel_of w id = Some (inl s)) /\
    (forall n, w_nregs w !! n = None -> channel_of w n = None).
Proof.
  intros w nm ad id r E He Hn Ha. unfold entry in He. rewrite E in He. unfold channel_of. rewrite He. split_and!.
  - by intros -> ->.
  - intros -> ->. by rewrite Hn, Ha.
  - intros s -> [g Hg]. cbn. by rewrite Hg.
  - by intros n ->.
Qed.
Print Assumptions C51_where_frames_go.
(** While process [p] dials a node that has no sender yet, frames for it queue up, in every schedule:
    what is queued is never reordered or lost.  When a connection is then accepted, its sender gets
    exactly those frames, nothing is left behind, and in every schedule after that frames only come
    after them, as long as the connection is not ended. *)
Theorem C51_pending_first_in_order_partial :
  forall S w nm ad p r, proper S w -> entry w (NRemote nm ad) = Some r -> n_sup r = Some p -> n_state r = Pending -> n_sender r = None ->
    (forall s1, reach (calls_of S (leaves_record nm ad p Pending)) (Sys w []) s1 ->
       queued w (inr (NRemote nm ad)) `prefix_of` queued (s_world s1) (inr (NRemote nm ad))) /\
    (forall me, exists w2 s rc, run (call_prog S (CSupervise me nm ad)) w = Done w2 (VWorkers (PLocal s) rc) /\
       queued w (inl s) = [] /\ queued w2 (inl s) = queued w (inr (NRemote nm ad)) /\ queued w2 (inr (NRemote nm ad)) = [] /\
       forall s2, reach (calls_of S (keeps_connection (NRemote nm ad) me)) (Sys w2 []) s2 ->
         queued w2 (inl s) `prefix_of` queued (s_world s2) (inl s)).
Proof.
  intros S w nm ad p r Hp He Hs Hst Hse. pose proof (proper_tables S w Hp) as Ht. split.
  - intros s1 Hr. unfold entry in He. destruct (w_nmap w !! NRemote nm ad) as [id|] eqn:E; [|done].
    destruct (tables_entry w nm ad id Ht E) as (r' & Hr' & _ & Hn' & Ha' & Hs' & Hi'). rewrite He in Hr'. injection Hr' as <-.
    assert (on_record nm ad id p Pending None (queued w (inr (NRemote nm ad))) w) as Hrec.
    { constructor; [done| | |by exists r|done].
      - intros nd' Hnd. destruct (to_map _ Ht _ _ Hnd) as (r1 & Hr1 & Hx). rewrite He in Hr1. injection Hr1 as <-.
        destruct nd' as [|n a]; [tauto|]. destruct Hx as (_ & <- & <- & _). by rewrite Hn', Ha'.
      - split; [|by eapply (to_below _ Ht)]. unfold LOCAL_NODE_ID in Hi'. lia. }
    pose proof (record_lasts S nm ad id p Pending None _ ltac:(done) w s1 Hrec Hr) as [_ _ _ _ H]. exact H.
  - intros me. assert (exists w2 v, run (call_prog S (CSupervise me nm ad)) w = Done w2 v) as (w2 & v & E).
    { apply C54_accepts_iff_free; [done|]. intros (q & r1 & H1 & H2 & H3). rewrite He in H1. injection H1 as <-. done. }
    destruct (accepted_record S w me nm ad w2 v Hp E) as (id & s & -> & Es & Hrec & Ho & Hpe & Hreg).
    exists w2, s, (PLocal (N.succ s)). split; [done|]. unfold queued. rewrite Ho, Hpe. cbn [from_option]. split_and!; try done.
    + destruct (w_out w !! s) eqn:Eo; [|done]. exfalso.
      pose proof (proj2 (occurs_allots S w (seq_occurs S w (proper_seq S w Hp))) s ltac:(eauto)). lia.
    + intros s2 Hr.
      assert (on_record nm ad id (PLocal me) Connected (Some (PLocal s)) (default [] (w_pend w !! NRemote nm ad)) (s_world s2)) as [_ _ _ _ H].
      { apply (record_lasts S nm ad id (PLocal me) Connected (Some (PLocal s)) _ ltac:(eauto) w2 s2 Hrec).
        eapply rtc_subrel; [|exact Hr]. intros s0 s3 Hst'. destruct Hst' as [i s0 s3 Htk|p' s0 (c & Hc & ->)]; [by eapply step_tick|].
        apply step_call. exists c. split; [|done]. destruct c; try exact I; cbn in *; auto. }
      exact H.
Qed.
Print Assumptions C51_pending_first_in_order_partial.
(** Without "n_sender r = None" it is false: disconnecting leaves the old connection's sender on record,
    and frames sent while the node is being dialled again go to it. *)
Definition C51_statement (S : serde) : Prop :=
  forall w nm ad id p me i why w1 me' w2 s rc, proper S w -> w_nmap w !! NRemote nm ad = Some id -> dialling w (NRemote nm ad) p ->
    run (call_prog S (CExit me (PRemote i id) why)) w = Done w1 VUnit ->
    run (call_prog S (CSupervise me' nm ad)) w1 = Done w2 (VWorkers (PLocal s) rc) ->
    FExit i me why ∈ queued w2 (inl s).
Theorem C51_refuted : ~ C51_statement S0.
Proof.
  intros H.
  assert (exists w, proper S0 w /\ (w_nmap w !! nodeA = Some 1%N /\ dialling w nodeA (PLocal 5) /\
    match run (call_prog S0 (CExit 1 (PRemote 9 1) RKill)) w with
    | Done w1 v1 => v1 = VUnit /\
        match run (call_prog S0 (CSupervise 5 "a" (SA4 1 5))) w1 with
        | Done w2 v2 => v2 = VWorkers (PLocal 6) (PLocal 7) /\ queued w2 (inl 6%N) = []
        | _ => False end
    | _ => False end)) as (w & Hp & E1 & Hd & Hx).
  { apply (proper_some S0 (fun w => _ /\ _ /\ _) [CSpawn 0 false false; CConnect nodeA; CSupervise 2 "a" (SA4 1 5); CDisconnect 1 nodeA; CConnect nodeA]); [repeat constructor|].
    vm_compute. eauto 10. }
  destruct (run (call_prog S0 (CExit 1 (PRemote 9 1) RKill)) w) as [w1 v1| |] eqn:E2; try done. destruct Hx as [-> Hx].
  destruct (run (call_prog S0 (CSupervise 5 "a" (SA4 1 5))) w1) as [w2 v2| |] eqn:E3; try done. destruct Hx as [-> Hq].
  pose proof (H w "a" (SA4 1 5) 1%N _ 1%N 9%N RKill w1 5%N w2 6%N _ Hp E1 Hd E2 E3) as Hin. rewrite Hq in Hin. by apply elem_of_nil in Hin.
Qed.
Print Assumptions C51_refuted.
(** Two frames sent while process 2 dials: the sender of the accepted connection gets both, in order. *)
Example C51_example :
  exists w, proper S0 w /\ entry w nodeA = Some (NReg (Some (PLocal 2)) None None Pending "a" (SA4 1 5)) /\
    queued w (inr nodeA) = [FExit 9 1 RKill; FExit 8 1 RNormal] /\
    match run (call_prog S0 (CSupervise 2 "a" (SA4 1 5))) w with
    | Done w2 v => v = VWorkers (PLocal 3) (PLocal 4) /\ queued w2 (inl 3%N) = [FExit 9 1 RKill; FExit 8 1 RNormal] | _ => False end.
Proof.
  apply (proper_some S0 (fun w => _ /\ _ /\ _) [CSpawn 0 false false; CConnect nodeA; CExit 1 (PRemote 9 1) RKill; CExit 1 (PRemote 8 1) RNormal]); [repeat constructor|].
  vm_compute. auto.
Qed.
