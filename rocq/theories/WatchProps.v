(** C91: a monitor that is in place reports the end of its target exactly once, in every schedule. *)
From stdpp Require Import base list gmap numbers strings countable sorting relations.
From Coq Require Import Lia.
From Verif Require Import Prog ProgProofs ProgInv Types Mailbox World ProcApi NodeApi Api Steps Hist Labels Play SchedSpec SchedProofs SchedProps
  ProcSpec ProcProofs ProcInv FreshProofs RegProofs Msum DownProofs AllocProofs MonProofs MonLife Debt TieSpec WatchProofs TieProps.

(** Every call but the one that removes the monitor [r] of [me]. *)
Definition keeps_watch (me : N) (r : reference) (c : call) : Prop := c <> CDemonitor me r.

(** Threads beside others. *)
Lemma reach_beside {W R} (api : prog W R -> Prop) (ts : list (prog W R)) (s s' : sys W R) : reach api s s' ->
  reach api (Sys (s_world s) (ts ++ s_threads s)) (Sys (s_world s') (ts ++ s_threads s')).
Proof.
  intros H. induction H as [s|s1 s2 s3 Hs _ IH]; [apply rtc_refl|]. eapply rtc_l; [|exact IH]. destruct Hs as [i y z Hi|p y Hp].
  - eapply (step_tick _ (length ts + i)). unfold tick in *. cbn. rewrite lookup_app_r, Nat.add_comm, Nat.add_sub by lia.
    destruct (s_threads y !! i) as [[| |g f k]|]; try discriminate. destruct (g (s_world y)); inversion Hi; subst; cbn.
    rewrite Nat.add_comm, insert_app_r. done.
  - cbn. rewrite app_assoc. by apply (step_call _ p (Sys (s_world y) (ts ++ s_threads y))).
Qed.
Lemma reach_occurs S ok w (s : sys world val) : occurs S w -> reach (calls_of S ok) (Sys w []) s -> occurs S (s_world s).
Proof.
  intros [ts Ht] Hr. exists (ts ++ s_threads s). eapply rtc_transitive; [exact Ht|].
  pose proof (reach_beside _ ts _ _ Hr) as H. cbn in H. rewrite app_nil_r in H. eapply rtc_subrel; [|exact H].
  intros x y Hs. destruct Hs as [i y' z Hi|p y' (c & _ & ->)]; [by eapply step_tick|apply step_call; by exists c].
Qed.
Lemma monitor_call S me d w0 w1 r : run (monitor me d) w0 = Done w1 r -> happens S (CMonitor me d) w0 w1.
Proof. intros E. eapply (happens_done S _ _ _ (VRef r)). cbn [call_prog]. unfold ret_as. rewrite run_bind, E. reflexivity. Qed.

Lemma occurs_down_cnt S k w : occurs S w -> down_cnt k w <= 1.
Proof.
  intros [ts Hr].
  pose proof (reach_tok (fun _ => True) (down_cnt k) (fun _ : val => 0) (any_call S) world0 (Sys w ts) I) as H.
  destruct H as [_ Hc]; [|exact Hr|].
  - intros q [c ->]. eapply tok_mono; [|apply (call_tok_down S k c)]. intros; lia.
  - assert (down_cnt k world0 <= 1) as H0.
    { unfold down_cnt, unalloc; cbn. case_decide; cbn; unfold msum; rewrite ?map_fold_empty; cbn; lia. }
    cbn in Hc. lia.
Qed.

Lemma monitor_regs (S : serde) me d i w : is_Some (w_regs w !! i) -> is_Some (w_regs (out_world (run (monitor me d) w)) !! i).
Proof.
  apply (run_guar (fun w w' => is_Some (w_regs w !! i) -> is_Some (w_regs w' !! i)) (monitor me d) w); [done|auto|].
  eapply guar_mono; [|apply (l_monitor S me d)]. intros w1 w2 (x & Hx & ->) Hi. pose proof (regs_change S i x w1) as Hc.
  destruct Hc; rewrite ?fmap_is_Some; eauto; subst x; done.
Qed.
Section watched.
  Context (S : serde) (k me target : N) (d : dest) (Hmt : me <> target).
  Notation api := (calls_of S (keeps_watch me (RLocal k))).
  Notation ow s g x := (owed (ev target) (J k me target d) (K me) (s_world s) (s_threads s) g x).
  Lemma watch_refl w g : ev target w w g = g.
  Proof. unfold ev. by destruct (w_regs w !! target). Qed.
  Lemma watch_step (s s' : sys world val) g x : ow s g x -> sys_step api s s' -> exists x', ow s' (ev target (s_world s) (s_world s') g) x'.
  Proof. intros Hx Hs. eapply (owed_step _ _ _ watch_refl api); [|exact Hx|exact Hs]. intros p (c & Hc & ->). by apply t_call. Qed.
  Lemma watch_start w : basic k me target w -> is_Some (w_regs w !! target) -> stored k me target d w -> ow (Sys w [] : sys world val) None None.
  Proof.
    intros H1 H2 H3. split; [done|].
    exists []. split; [constructor|]. split_and!; [intros i s b Hi; discriminate|intros i s Hi; discriminate|intros i i' s s' b b' Hi; discriminate|discriminate].
  Qed.
  Lemma watch_reach (s0 s : sys world val) g x : ow s0 g x -> reach api s0 s -> exists g' x', ow s g' x'.
  Proof.
    intros H0 Hr. revert s Hr. refine (rtc_ind_r (fun s => exists g' x', ow s g' x') s0 _ _); [by eauto|].
    intros y z _ Hs (g' & x' & Hx). destruct (watch_step y z g' x' Hx Hs) as (x2 & ?). eauto.
  Qed.
  Lemma watch_ghost (s : sys world val) g x : ow s g x -> is_Some (w_regs (s_world s) !! target) -> g = None /\ x = None.
  Proof.
    intros [[_ H] _] Ht. destruct x as [[[[] ?] ?]|], g as [[? ?]|]; try done.
    - destruct H as (_ & E & _). rewrite E in Ht. by destruct Ht.
    - destruct H as (_ & E & _). rewrite E in Ht. by destruct Ht.
    - destruct H as (E & _). rewrite E in Ht. by destruct Ht.
  Qed.
  Lemma watch_after (s0 s : sys world val) y x : ow s0 (Some y) x -> reach api s0 s -> exists x', ow s (Some y) x'.
  Proof.
    intros H0 Hr. revert s Hr. refine (rtc_ind_r (fun s => exists x', ow s (Some y) x') s0 _ _); [by eauto|].
    intros s s' _ Hs (x' & Hx). destruct (watch_step s s' _ _ Hx Hs) as (x2 & Hx2). exists x2.
    assert (ev target (s_world s) (s_world s') (Some y) = Some y) as E; [|by rewrite <- E].
    unfold ev. destruct (w_regs (s_world s) !! target) eqn:Ea; [|done]. pose proof (watch_ghost s _ _ Hx) as H. rewrite Ea in H. destruct (H ltac:(eauto)). done.
  Qed.
End watched.

(** [me] monitors the existing process [target], by pid or by name.  Whatever calls are made afterwards, interleaved in any
    way - the end of either process included, only [me] does not remove the monitor:
    - as long as both processes are there, no notice for the monitor has been put into a mailbox;
    - when [target] leaves with reason [why], and all calls have returned, and [me] is still there, then exactly one notice
      for the monitor has ever been put into a mailbox: into that of [me], with the destination used and the reason. *)
Theorem C91_monitor_in_place_reports :
  forall S w0 me target d, occurs S w0 -> me <> target ->
    is_Some (w_regs w0 !! me) -> is_Some (w_loc w0 !! me) -> is_Some (w_regs w0 !! target) -> means w0 d target ->
    exists w1 k, run (monitor me d) w0 = Done w1 (RLocal k) /\
      (forall s, reach (calls_of S (keeps_watch me (RLocal k))) (Sys w1 []) s ->
         is_Some (w_regs (s_world s) !! me) -> is_Some (w_regs (s_world s) !! target) -> downs (RLocal k) (s_world s) = []) /\
      (forall s1 s2 s3 why, reach (calls_of S (keeps_watch me (RLocal k))) (Sys w1 []) s1 ->
         sys_step (calls_of S (keeps_watch me (RLocal k))) s1 s2 -> leaves target why s1 s2 ->
         reach (calls_of S (keeps_watch me (RLocal k))) s2 s3 -> settled s3 -> is_Some (w_regs (s_world s3) !! me) ->
         downs (RLocal k) (s_world s3) = [(me, IProcessDown d (RLocal k) why)]).
Proof.
  intros S w0 me target d Ho Hne Hm Hl Ht Hd.
  destruct (monitor_alive S me target d w0 Ho Hne Hm Hl Ht Hd) as (w1 & E & Hw). set (k := w_next_ref w0) in *.
  pose proof (occurs_run S w0 _ w1 Ho (monitor_call S _ _ _ _ _ E)) as Ho1.
  assert (is_Some (w_regs w1 !! target)) as Ht1.
  { pose proof (monitor_regs S me d target w0 Ht) as H. by rewrite E in H. }
  assert (owed (ev target) (J k me target d) (K me) w1 ([] : list (prog world val)) None None) as H0.
  { apply (watch_start k me target d w1); [|exact Ht1|intros _; apply (wt_stored _ _ _ _ _ Hw)]. constructor.
    - apply Hw.
    - destruct (occurs_allots S w1 Ho1) as [Ha _]. apply Ha, Ht1.
    - apply Hw.
    - intros _. destruct (wt_loc _ _ _ _ _ Hw) as (l & -> & _). eauto.
    - apply Hw.
    - apply Hw.
    - apply Hw.
    - intros r from d'. apply (occurs_named S w1 Ho1 target). }
  exists w1, k. split; [exact E|]. split.
  - intros s Hr Hm' Ht'. destruct (watch_reach S k me target d Hne (Sys w1 []) s None None H0 Hr) as (g & x & Hx).
    destruct (watch_ghost _ _ _ _ _ _ _ Hx Ht') as [-> ->]. destruct Hx as [(_ & _ & Hs) _]. specialize (Hs Hm').
    pose proof (occurs_down_cnt S k _ (reach_occurs S _ w1 s Ho1 Hr)) as Hc. unfold down_cnt in Hc.
    destruct (w_mons (s_world s) !! target) as [m|] eqn:Em; cbn in Hs; [|by rewrite lookup_empty in Hs].
    pose proof (msum_ge (has k) (w_mons (s_world s)) target m Em) as Hg. unfold has in Hg at 1. rewrite Hs in Hg.
    apply length_zero_iff_nil. lia.
  - intros s1 s2 s3 why H1 H12 (r & Hr & <- & Hg) H3 Hs Hm3.
    destruct (watch_reach S k me target d Hne (Sys w1 []) s1 None None H0 H1) as (g & x & Hx). destruct (watch_ghost _ _ _ _ _ _ _ Hx ltac:(rewrite Hr; eauto)) as [-> ->].
    destruct (watch_step S k me target d Hne _ _ _ _ Hx H12) as (x2 & Hx2). unfold ev in Hx2. rewrite Hr, Hg in Hx2.
    destruct (watch_after S k me target d Hne _ _ _ _ Hx2 H3) as (x3 & Hx3). pose proof (owed_settled _ _ _ _ _ _ _ Hx3 Hs) as ->.
    destruct Hx3 as [(_ & _ & _ & Hd3) _]. specialize (Hd3 Hm3).
    assert (occurs S (s_world s3)) as Ho3.
    { apply (reach_occurs S (keeps_watch me (RLocal k)) w1 s3 Ho1). eapply rtc_transitive; [exact H1|]. eapply rtc_l; [exact H12|exact H3]. }
    pose proof (occurs_down_cnt S k _ Ho3) as Hc. unfold down_cnt in Hc.
    assert ((me, IProcessDown d (RLocal k) (final_reason r)) ∈ downs (RLocal k) (s_world s3)) as Hin.
    { apply elem_of_list_filter. split; [done|]. eapply elem_of_submseteq; [exact Hd3|]. apply sublist_submseteq, sublist_drop. }
    destruct (downs (RLocal k) (s_world s3)) as [|y [|z l]]; [by apply elem_of_nil in Hin| |cbn in Hc; lia].
    apply elem_of_list_singleton in Hin as ->. done.
Qed.
Print Assumptions C91_monitor_in_place_reports.
(** non-vacuity: process 1 monitors 2; while 2 crashes, a third process sends a message to 1 *)
Definition two_watched : world := out_world (run (call_prog S0 (CMonitor 1 (DPid (PLocal 2)))) two).
Example C91_example :
  exists s1 s2 s3, reach (calls_of S0 (keeps_watch 1 (RLocal 1))) (Sys two_watched []) s1 /\ sys_step (calls_of S0 (keeps_watch 1 (RLocal 1))) s1 s2 /\
    leaves 2 (RCustom "boom") s1 s2 /\ reach (calls_of S0 (keeps_watch 1 (RLocal 1))) s2 s3 /\ settled s3 /\
    w_log (s_world s3) = [(1%N, IUserLocal (Val 0 7)); (1%N, IProcessDown (DPid (PLocal 2)) (RLocal 1) (RCustom "boom"))].
Proof.
  destruct (tie_example S0 (keeps_watch 1 (RLocal 1)) two_watched [CCrash 2 (RCustom "boom"); CSend (DsOne (DPid (PLocal 1))) (Val 0 7)] [0] 0 [0; 1; 0; 0; 0; 0; 0]
    (fun s1 s2 s3 => leavesb 2 s1 s2 = Some (RCustom "boom") /\ settledb s3 = true /\
      w_log (s_world s3) = [(1%N, IUserLocal (Val 0 7)); (1%N, IProcessDown (DPid (PLocal 2)) (RLocal 1) (RCustom "boom"))])) as (s1 & s2 & s3 & H1 & H2 & H3 & H4 & H5 & H6).
  { repeat constructor; discriminate. }
  { vm_compute. auto. }
  exists s1, s2, s3. split; [exact H1|]. split; [exact H2|]. split; [by apply leavesb_leaves|]. split; [exact H3|]. split; [by apply settledb_settled|exact H6].
Qed.
