(** C56: a monitor recorded for a process of another node answers in every schedule. *)
From stdpp Require Import base list gmap numbers strings countable sorting relations.
From Coq Require Import Lia.
From Verif Require Import Prog ProgProofs ProgInv Types Mailbox World ProcApi NodeApi Api Steps Hist Labels Play SchedSpec SchedProofs SchedProps
  MailboxSpec ProcSpec ProcProofs ProcInv FreshProofs AllocProofs SendSpec RMonProofs NetLife NetSpec NetProofs ConnProofs ConnLasts ConnProps RemoteProps Debt TieSpec TieProps WatchProps RWatchProofs OwnerProofs.

(** Every call but those that end the connection of process [conn] to [nd], and another monitor request or withdrawal with the reference [k] from there. *)
Definition keeps_request (nd : node) (conn k : N) (c : call) : Prop :=
  keeps_connection nd conn c /\ match c with CFrame nd' _ (FMonitor _ _ _ _ k') => ~ (nd' = nd /\ k' = k) | _ => True end.

Section rwatched.
  Context (S : serde) (nm : string) (ad : sockaddr) (id conn s k f target : N) (Hst : s <> target).
  Notation nd := (NRemote nm ad).
  Notation api := (calls_of S (keeps_request nd conn k)).
  Notation JJ := (RWatchProofs.J nm ad id (PLocal conn) Connected (Some (PLocal s)) k f target).
  Notation evv := (ev nm ad (Some (PLocal s)) target).
  Notation ow z g x := (owed evv JJ RWatchProofs.K (s_world z) (s_threads z) g x).
  Notation bs := (basic nm ad id (PLocal conn) Connected (Some (PLocal s)) k target).
  Lemma keeps_leaves c : keeps_request nd conn k c -> leaves_watch nm ad (PLocal conn) Connected k c.
  Proof. intros [H1 H2]. split; [|exact H2]. destruct c; cbn in *; auto. Qed.
  Lemma rw_refl w g : evv w w g = g.
  Proof. unfold ev. by destruct (w_regs w !! target). Qed.
  Lemma rw_step (z z' : sys world val) g x : ow z g x -> sys_step api z z' -> exists x', ow z' (evv (s_world z) (s_world z') g) x'.
  Proof.
    intros Hx Hs. eapply (owed_step _ _ _ rw_refl api); [|exact Hx|exact Hs]. intros p (c & Hc & ->).
    apply RWatchProofs.t_call; [done|by eexists|by intros ? [= <-]|by apply keeps_leaves].
  Qed.
  Lemma rw_start w : bs w -> is_Some (w_regs w !! target) -> stored id k f target w -> ow (Sys w [] : sys world val) None None.
  Proof.
    intros H1 H2 H3. split; [done|].
    exists []. split; [constructor|]. split_and!; [intros i z b Hi; discriminate|intros i z Hi; discriminate|intros i i' z z' b b' Hi; discriminate|discriminate].
  Qed.
  Lemma rw_reach (s0 z : sys world val) g x : ow s0 g x -> reach api s0 z -> exists g' x', ow z g' x'.
  Proof.
    intros H0 Hr. revert z Hr. refine (rtc_ind_r (fun z => exists g' x', ow z g' x') s0 _ _); [by eauto|].
    intros y z _ Hs (g' & x' & Hx). destruct (rw_step y z g' x' Hx Hs) as (x2 & ?). eauto.
  Qed.
  Lemma rw_ghost (z : sys world val) g x : ow z g x -> is_Some (w_regs (s_world z) !! target) -> g = None /\ x = None.
  Proof.
    intros [[_ H] _] Ht. destruct x as [[[[] ?] ?]|], g as [[? ?]|]; try done.
    - destruct H as (_ & E & _). rewrite E in Ht. by destruct Ht.
    - destruct H as (_ & E & _). rewrite E in Ht. by destruct Ht.
    - destruct H as (E & _). rewrite E in Ht. by destruct Ht.
  Qed.
  Lemma rw_after (s0 z : sys world val) y x : ow s0 (Some y) x -> reach api s0 z -> exists x', ow z (Some y) x'.
  Proof.
    intros H0 Hr. revert z Hr. refine (rtc_ind_r (fun z => exists x', ow z (Some y) x') s0 _ _); [by eauto|].
    intros z z' _ Hs (x' & Hx). destruct (rw_step z z' _ _ Hx Hs) as (x2 & Hx2). exists x2.
    assert (evv (s_world z) (s_world z') (Some y) = Some y) as E; [|by rewrite <- E].
    unfold ev. destruct (w_regs (s_world z) !! target) eqn:Ea; [|done]. pose proof (rw_ghost z _ _ Hx) as H. rewrite Ea in H. destruct (H ltac:(eauto)). done.
  Qed.
  Lemma rw_basic w : occurs S w -> on_record nm ad id (PLocal conn) Connected (Some (PLocal s)) [] w -> (s < w_next_pid w)%N -> is_Some (w_regs w !! target) -> bs w.
  Proof.
    intros Ho Hrec Hs Ht. split; [exact Hrec|].
    pose proof (or_bound _ _ _ _ _ _ _ _ Hrec) as Hb. pose proof (or_map _ _ _ _ _ _ _ _ Hrec) as Hm.
    destruct (occurs_owner S id ltac:(unfold LOCAL_NODE_ID; lia) w Ho) as ([o|] & H1 & H2 & H3 & H4); [|by destruct (H3 nd)].
    assert (nd = o) as <- by (by apply H3). constructor.
    - destruct (occurs_allots S w Ho) as [Ha _]. by apply Ha.
    - intros z [= <-]. exact Hs.
    - intros nd' Hn. by apply H4.
    - intros j l Hl. by apply (H1 j l).
    - intros r from d'. apply (occurs_named S w Ho target).
  Qed.
End rwatched.
Lemma pids_grow S (ok : call -> Prop) w (s : sys world val) : reach (calls_of S ok) (Sys w []) s -> (w_next_pid w <= w_next_pid (s_world s))%N.
Proof.
  intros Hr. refine (proj1 (reach_guar (fun w w' => w_next_pid w <= w_next_pid w')%N _ (Sys w []) s _ _ _ _ Hr)); try (intros; lia); [|constructor].
  intros q (c & _ & ->). eapply guar_mono; [|apply call_steps]. intros a b Hab. apply (step1_next S a b Hab).
Qed.
Lemma run_calls S (ok : call -> Prop) c w w' v : ok c -> run (call_prog S c) w = Done w' v -> reach (calls_of S ok) (Sys w []) (Sys w' [Ret v]).
Proof.
  intros Hc E. eapply rtc_l; [apply (step_call (calls_of S ok) (call_prog S c) (Sys w [])); by exists c|].
  pose proof (run_reach (calls_of S ok) [] (call_prog S c) w) as H. by rewrite E in H.
Qed.
Lemma frame_regs S nd sup b t n f k i w w' v : run (call_prog S (CFrame nd sup (FMonitor b t n f k))) w = Done w' v ->
  is_Some (w_regs w !! i) -> is_Some (w_regs w' !! i).
Proof.
  intros E. pose proof (run_guar (fun w w' => is_Some (w_regs w !! i) -> is_Some (w_regs w' !! i)) (call_prog S (CFrame nd sup (FMonitor b t n f k))) w) as H.
  rewrite E in H. cbn [out_world] in H. apply H; [done|auto|]. eapply guar_mono; [|apply call_fp].
  intros w1 w2 (y & Hy & ->) Hi. pose proof (RegProofs.regs_change S i y w1) as Hc. destruct Hc; rewrite ?fmap_is_Some; eauto; subst y; cbn in Hy; done.
Qed.

(** A connection to another node is accepted (process [conn] serves it, [s] writes to it).  After any schedule of calls that
    do not end it, the node asks for a monitor of an existing process [target] on behalf of its process [f], under its
    reference [k].  After that, in every schedule of calls that neither end the connection nor ask again with the same reference:
    - as long as [target] is there, the monitor is on record;
    - when [target] leaves with reason [why], then by the time all calls have returned - and unless the writer of the
      connection is gone - a message that [k] went down with that reason has been given to the connection. *)
Theorem C56_reported_in_every_schedule :
  forall S w0 conn nm ad w1 s rc, proper S w0 -> run (call_prog S (CSupervise conn nm ad)) w0 = Done w1 (VWorkers (PLocal s) rc) ->
  exists id, w_nmap w1 !! NRemote nm ad = Some id /\
  forall sv, reach (calls_of S (keeps_connection (NRemote nm ad) conn)) (Sys w1 []) sv ->
  forall sup target f k, s <> target -> is_Some (w_regs (s_world sv) !! target) ->
  exists w2, run (call_prog S (CFrame (NRemote nm ad) sup (FMonitor true (Some target) None (Some f) k))) (s_world sv) = Done w2 VUnit /\
    (forall z, reach (calls_of S (keeps_request (NRemote nm ad) conn k)) (Sys w2 []) z -> is_Some (w_regs (s_world z) !! target) ->
       monitors_on (s_world z) target !! RRemote k id = Some (PRemote f id, None)) /\
    (forall s1 s2 s3 why, reach (calls_of S (keeps_request (NRemote nm ad) conn k)) (Sys w2 []) s1 ->
       sys_step (calls_of S (keeps_request (NRemote nm ad) conn k)) s1 s2 -> leaves target why s1 s2 ->
       reach (calls_of S (keeps_request (NRemote nm ad) conn k)) s2 s3 -> settled s3 -> is_Some (w_regs (s_world s3) !! s) ->
       exists rs, k ∈ rs /\ FMonitorDown rs why ∈ drop (length (queued (s_world s2) (inl s))) (queued (s_world s3) (inl s))).
Proof.
  intros S w0 conn nm ad w1 s rc Hp E. destruct (accepted_record S w0 conn nm ad w1 _ Hp E) as (id & s' & Hv & Hs' & Hrec & _ & _ & Hreg).
  injection Hv as <- _. exists id. split; [apply Hrec|]. intros sv Hsv sup target f k Hne Ht.
  pose proof (seq_occurs S w0 (proper_seq S w0 Hp)) as Ho0.
  assert (occurs S w1) as Ho1 by (eapply occurs_run; [exact Ho0|eapply happens_done; exact E]).
  pose proof (reach_occurs S _ w1 sv Ho1 Hsv) as Hov.
  assert (s < w_next_pid w1)%N as Hlt1 by (destruct (occurs_allots S w1 Ho1) as [Ha _]; by apply Ha).
  pose proof (pids_grow S _ w1 sv Hsv) as Hg1.
  assert (on_record nm ad id (PLocal conn) Connected (Some (PLocal s)) [] (s_world sv)) as Hrecv.
  { apply (record_weaken nm ad id (PLocal conn) Connected (Some (PLocal s)) (default [] (w_pend w0 !! NRemote nm ad))).
    apply (record_lasts S nm ad id (PLocal conn) Connected (Some (PLocal s)) _ ltac:(eauto) w1 sv Hrec).
    eapply rtc_subrel; [|exact Hsv]. intros a b Hab. destruct Hab as [i a b Hi|q a (c & Hc & ->)]; [by eapply step_tick|].
    apply step_call. exists c. split; [|done]. destruct c; cbn in *; auto. }
  destruct (C56_request_installed S nm ad id sup target f k (s_world sv) (or_map _ _ _ _ _ _ _ _ Hrecv) Ht) as (w2 & E2 & Hm & _).
  exists w2. split; [exact E2|].
  assert (occurs S w2) as Ho2 by (eapply occurs_run; [exact Hov|eapply happens_done; exact E2]).
  assert (reach (calls_of S (leaves_record nm ad (PLocal conn) Connected)) (Sys (s_world sv) []) (Sys w2 [Ret VUnit])) as Hr2 by (eapply run_calls; [|exact E2]; exact I).
  pose proof (record_lasts S nm ad id (PLocal conn) Connected (Some (PLocal s)) [] ltac:(eauto) _ _ Hrecv Hr2) as Hrec2. cbn in Hrec2.
  pose proof (pids_grow S _ _ _ Hr2) as Hg2. cbn in Hg2.
  assert (is_Some (w_regs w2 !! target)) as Ht2.
  { eapply frame_regs; [exact E2|exact Ht]. }
  assert (owed (ev nm ad (Some (PLocal s)) target) (RWatchProofs.J nm ad id (PLocal conn) Connected (Some (PLocal s)) k f target) RWatchProofs.K w2 ([] : list (prog world val)) None None) as H0.
  { apply (rw_start nm ad id conn s k f target w2); [|exact Ht2|exact Hm]. apply (rw_basic S); try done. lia. }
  split.
  - intros z Hz Htz. destruct (rw_reach S nm ad id conn s k f target Hne (Sys w2 []) z None None H0 Hz) as (g & x & Hx).
    destruct (rw_ghost _ _ _ _ _ _ _ _ _ _ _ Hx Htz) as [-> ->]. destruct Hx as [(_ & _ & Hst) _]. exact Hst.
  - intros s1 s2 s3 why H1 H12 (r & Hr & <- & Hg) H3 Hs Hm3.
    destruct (rw_reach S nm ad id conn s k f target Hne (Sys w2 []) s1 None None H0 H1) as (g & x & Hx).
    destruct (rw_ghost _ _ _ _ _ _ _ _ _ _ _ Hx ltac:(rewrite Hr; eauto)) as [-> ->].
    destruct (rw_step S nm ad id conn s k f target Hne _ _ _ _ Hx H12) as (x2 & Hx2). unfold ev in Hx2. rewrite Hr, Hg in Hx2.
    destruct (rw_after S nm ad id conn s k f target Hne _ _ _ _ Hx2 H3) as (x3 & Hx3). pose proof (owed_settled _ _ _ _ _ _ _ Hx3 Hs) as ->.
    destruct Hx3 as [(_ & _ & _ & Hd3) _]. apply Hd3. by intros ? [= <-].
Qed.
Print Assumptions C56_reported_in_every_schedule.
(** non-vacuity: process 1 is monitored by process 7 of node "a" under its reference 4; it crashes while 7 signals another process. *)
Definition dialled : world := default world0 (play S0 [CSpawn 0 false false; CConnect nodeA] world0).
Lemma dialled_proper : proper S0 dialled.
Proof.
  destruct (proper_some S0 (fun w => w = dialled) [CSpawn 0 false false; CConnect nodeA]) as (w & Hw & ->); [repeat constructor| |exact Hw].
  unfold dialled. destruct (play S0 [CSpawn 0 false false; CConnect nodeA] world0) as [w|] eqn:E; [reflexivity|]. vm_compute in E. discriminate.
Qed.
Definition linked_up : world := out_world (run (call_prog S0 (CSupervise 2 "a" (SA4 1 5))) dialled).
Definition asked : frame := FMonitor true (Some 1%N) None (Some 7%N) 4.
Definition recorded : world := out_world (run (call_prog S0 (CFrame nodeA (PLocal 2) asked)) linked_up).
Example C56_example_schedule :
  proper S0 dialled /\ run (call_prog S0 (CSupervise 2 "a" (SA4 1 5))) dialled = Done linked_up (VWorkers (PLocal 3) (PLocal 4)) /\
  run (call_prog S0 (CFrame nodeA (PLocal 2) asked)) linked_up = Done recorded VUnit /\
  exists s1 s2 s3, reach (calls_of S0 (keeps_request nodeA 2 4)) (Sys recorded []) s1 /\ sys_step (calls_of S0 (keeps_request nodeA 2 4)) s1 s2 /\
    leaves 1 (RCustom "boom") s1 s2 /\ reach (calls_of S0 (keeps_request nodeA 2 4)) s2 s3 /\ settled s3 /\ is_Some (w_regs (s_world s3) !! 3%N) /\
    queued (s_world s3) (inl 3%N) = [FMonitorDown [4%N] (RCustom "boom")].
Proof.
  split; [apply dialled_proper|]. split; [unfold linked_up; apply run_out; vm_compute; reflexivity|]. split; [unfold recorded; apply run_out; vm_compute; reflexivity|].
  destruct (tie_example S0 (keeps_request nodeA 2 4) recorded [CCrash 1 (RCustom "boom"); CFrame nodeA (PLocal 2) (FExit 5 7 RKill)] [0] 0 [0; 1; 0; 1; 0; 0; 0; 0; 0]
    (fun s1 s2 s3 => leavesb 1 s1 s2 = Some (RCustom "boom") /\ settledb s3 = true /\ bool_decide (is_Some (w_regs (s_world s3) !! 3%N)) = true /\
      queued (s_world s3) (inl 3%N) = [FMonitorDown [4%N] (RCustom "boom")])) as (s1 & s2 & s3 & H1 & H2 & H3 & H4 & H5 & H6 & H7).
  { repeat constructor; discriminate. }
  { vm_compute. auto. }
  exists s1, s2, s3. split; [exact H1|]. split; [exact H2|]. split; [by apply leavesb_leaves|]. split; [exact H3|]. split; [by apply settledb_settled|].
  split; [exact (proj1 (bool_decide_eq_true _) H6)|exact H7].
Qed.
(** "Every request is answered once the process has ended" - also when the request and the end overlap - is false: the
    request finds the process, the process ends, and only then is the monitor recorded, where nobody looks any more. *)
Definition C56_statement (S : serde) : Prop :=
  forall w0 conn nm ad w1 s rc sup target f k z, proper S w0 -> run (call_prog S (CSupervise conn nm ad)) w0 = Done w1 (VWorkers (PLocal s) rc) -> s <> target ->
    reach (calls_of S (keeps_request (NRemote nm ad) conn k)) (Sys w1 [call_prog S (CFrame (NRemote nm ad) sup (FMonitor true (Some target) None (Some f) k))]) z ->
    settled z -> w_regs (s_world z) !! target = None -> is_Some (w_regs (s_world z) !! s) ->
    exists rs why, k ∈ rs /\ FMonitorDown rs why ∈ queued (s_world z) (inl s).
Theorem C56_refuted : ~ C56_statement S0.
Proof.
  intros H.
  assert (exists z, reach (calls_of S0 (keeps_request nodeA 2 4)) (Sys linked_up [call_prog S0 (CFrame nodeA (PLocal 2) asked)]) z /\
    (settledb z = true /\ bool_decide (w_regs (s_world z) !! 1%N = None) = true /\ bool_decide (is_Some (w_regs (s_world z) !! 3%N)) = true /\ queued (s_world z) (inl 3%N) = [])) as (z & Hz & H1 & H2 & H3 & H4).
  { assert (match exec [0; 0; 1; 1; 1; 1; 1; 0; 0] (Sys linked_up [call_prog S0 (CFrame nodeA (PLocal 2) asked); call_prog S0 (CFinish 1)]) with Some z =>
      settledb z = true /\ bool_decide (w_regs (s_world z) !! 1%N = None) = true /\ bool_decide (is_Some (w_regs (s_world z) !! 3%N)) = true /\ queued (s_world z) (inl 3%N) = [] | None => False end) as Hx by (vm_compute; auto).
    destruct (exec _ _) as [z|] eqn:E; [|done]. exists z. split; [|exact Hx].
    eapply rtc_l; [|by eapply exec_reach]. apply (step_call (calls_of S0 (keeps_request nodeA 2 4)) (call_prog S0 (CFinish 1)) (Sys linked_up [call_prog S0 (CFrame nodeA (PLocal 2) asked)])).
    exists (CFinish 1). split; [split; exact I|done]. }
  assert (run (call_prog S0 (CSupervise 2 "a" (SA4 1 5))) dialled = Done linked_up (VWorkers (PLocal 3) (PLocal 4))) as E by (unfold linked_up; apply run_out; vm_compute; reflexivity).
  destruct (H dialled 2%N "a"%string (SA4 1 5) linked_up 3%N (PLocal 4) (PLocal 2) 1%N 7%N 4%N z dialled_proper E ltac:(discriminate) Hz) as (rs & why & _ & Hin).
  - by apply settledb_settled.
  - exact (proj1 (bool_decide_eq_true _) H2).
  - exact (proj1 (bool_decide_eq_true _) H3).
  - rewrite H4 in Hin. by apply elem_of_nil in Hin.
Qed.
Print Assumptions C56_refuted.

(** Both nodes, in every schedule.  Node A (state [w]) knows node B as [NRemote nb ab]; node B accepted the connection of A
    ([NRemote nma ada] there) and did anything afterwards that kept it.  Process [me] of A monitors process [i] of B: one message leaves A.
    When it reaches B, the monitor is on record there, and when [i] then ends in any schedule, a message leaves B
    which, arriving at A after any schedule of other calls there, makes exactly one notice for [me], with the reason [i] ended with. *)
Theorem C56_two_nodes_in_every_schedule :
  forall S (w : world) me i n nb ab nma ada supA supB w0 conn w1 s rc sv,
    occurs S w -> is_Some (w_regs w !! me) -> is_Some (w_loc w !! me) -> lookup_remote n w = Some (nb, ab) ->
    proper S w0 -> run (call_prog S (CSupervise conn nma ada)) w0 = Done w1 (VWorkers (PLocal s) rc) ->
    reach (calls_of S (keeps_connection (NRemote nma ada) conn)) (Sys w1 []) sv -> s <> i -> is_Some (w_regs (s_world sv) !! i) ->
    exists w' k fr v1, run (call_prog S (CMonitor me (DPid (PRemote i n)))) w = Done w' (VRef (RLocal k)) /\
      (exists n', w_nmap w' !! NRemote nb ab = Some n' /\ emits w' [(n', fr)] w w') /\
      run (call_prog S (CFrame (NRemote nma ada) supB fr)) (s_world sv) = Done v1 VUnit /\
      forall s1 s2 s3 why, reach (calls_of S (keeps_request (NRemote nma ada) conn k)) (Sys v1 []) s1 ->
        sys_step (calls_of S (keeps_request (NRemote nma ada) conn k)) s1 s2 -> leaves i why s1 s2 ->
        reach (calls_of S (keeps_request (NRemote nma ada) conn k)) s2 s3 -> settled s3 -> is_Some (w_regs (s_world s3) !! s) ->
        exists rs, FMonitorDown rs why ∈ drop (length (queued (s_world s2) (inl s))) (queued (s_world s3) (inl s)) /\
          forall z, reach (calls_of S (leaves_remote_monitor k me (NRemote nb ab))) (Sys w' []) z ->
            exists w2 l l2, run (call_prog S (CFrame (NRemote nb ab) supA (FMonitorDown rs why))) (s_world z) = Done w2 VUnit /\
              w_loc (s_world z) !! me = Some l /\ w_loc w2 !! me = Some l2 /\
              notices k l = [] /\ notices k l2 = [PSys (SProcessDown (DPid (PRemote i n)) (RLocal k) why)].
Proof.
  intros S w me i n nb ab nma ada supA supB w0 conn w1 s rc sv Ho Hme Hl Hn Hp Ea Hsv Hne Hi.
  destruct (C56_monitor_answered S me (DPid (PRemote i n)) w nb ab (Some i) None _ Ho Hme Hl (rd_pid w i n nb ab Hn)) as (w' & k & n' & E & En & Ee & Ha).
  destruct (C56_reported_in_every_schedule S w0 conn nma ada w1 s rc Hp Ea) as (id & _ & Hb).
  destruct (Hb sv Hsv supB i me k Hne Hi) as (v1 & Ev & _ & Hd).
  exists w', k, (FMonitor true (Some i) None (Some me) k), v1. split; [exact E|]. split; [by exists n'|]. split; [exact Ev|].
  intros s1 s2 s3 why H1 H2 H3 H4 H5 H6. destruct (Hd s1 s2 s3 why H1 H2 H3 H4 H5 H6) as (rs & Hk & Hin). exists rs. split; [exact Hin|].
  intros z Hz. destruct (Ha z Hz supA rs why Hk) as (w2 & l & l2 & X1 & X2 & X3 & X4 & X5 & _). by exists w2, l, l2.
Qed.
Print Assumptions C56_two_nodes_in_every_schedule.
