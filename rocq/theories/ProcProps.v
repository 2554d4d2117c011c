(** Property theorems about processes: C18 - C23, C25, C30, C32. *)
From stdpp Require Import base list gmap numbers strings countable sorting relations.
From Coq Require Import Lia.
From Verif Require Import Prog ProgProofs ProgInv Types Mailbox MailboxSpec World ProcApi NodeApi Api Steps Hist Play Labels SchedSpec Msum SchedProofs DownProofs RecvProofs ProcSpec ProcProofs ProcInv FreshProofs MonProofs MonLife LinkProofs SchedProps.

(** ** C18. *)
(** Process::exit on a local process that exists, against the documented table ([exit_table]). *)
Theorem C18_exit_table :
  forall me i why w r, w_regs w !! i = Some r ->
    exists w', run (exit me (PLocal i) why) w = Done w' tt /\ same_elsewhere w w' /\
      match exit_table (bool_decide (i = me)) (r_trap r) why with
      | Ignored => w' = w
      | Delivered => w_regs w' = w_regs w /\
                     received (fun j => if decide (j = i) then [ISystem (SExit (PLocal me) why)] else []) w w'
      | Terminated => w_regs w' = <[i := terminated why r]> (w_regs w) /\ w_loc w' = w_loc w
      end.
Proof.
  intros me i why w r E. eexists. split; [reflexivity|]. cbn.
  pose proof (exit_op_spec i (PLocal me) why w r E) as [H1 H2]. cbn in H1, H2. split; [exact H1|].
  assert (bool_decide (PLocal i = PLocal me) = bool_decide (i = me)) as Eb by (apply bool_decide_ext; split; congruence).
  rewrite Eb in H2. case_match; tauto.
Qed.
Print Assumptions C18_exit_table.
(** A process that does not exist: nothing happens. *)
Theorem C18_exit_dead : forall me i why w, w_regs w !! i = None -> run (exit me (PLocal i) why) w = Done w tt.
Proof. intros me i why w E. cbn. unfold exit_op; cbn. by rewrite E. Qed.
Print Assumptions C18_exit_dead.
(** A terminated process is not alive, and when its future has ended it has exited with the reason
    of the signal - unless another one overwrote it. *)
Theorem C18_terminated :
  forall S w i why r, occurs S w -> w_regs w !! i = Some (terminated why r) ->
    run (alive (PLocal i)) w = Done w false /\
    exists w', run (drop_process i) w = Done w' tt /\ exited w i (terminated why r) why w'.
Proof.
  intros S w i why r Ho E. split.
  - cbn. rewrite E. reflexivity.
  - apply (drop_spec i w (terminated why r) E). by apply (occurs_named S).
Qed.
Print Assumptions C18_terminated.
(** A remote target: one Exit frame for it, nothing else. *)
Theorem C18_exit_remote :
  forall me i n why w, run (exit me (PRemote i n) why) w = Done (send_frame (FExit i me why) n w) tt.
Proof. reflexivity. Qed.
(** non-vacuity: process 2 traps exits and gets the message of process 1; Kill terminates it. *)
Example C18_example :
  let w := out_world (run (set_flags 2 true) two) in
  let w1 := out_world (run (exit 1 (PLocal 2) (RCustom "x")) w) in
  let w2 := out_world (run (exit 1 (PLocal 2) RKill) w1) in
  (l_chan <$> w_loc w1 !! 2%N) = Some [ISystem (SExit (PLocal 1) (RCustom "x"))] /\
  (r_exit <$> w_regs w1 !! 2%N) = Some None /\ (r_exit <$> w_regs w2 !! 2%N) = Some (Some RKill).
Proof. vm_compute. auto. Qed.

(** ** C19. *)
Definition is_exit (x : item) : Prop := match x with ISystem (SExit _ _) => True | _ => False end.
Global Instance is_exit_dec x : Decision (is_exit x).
Proof. destruct x as [| |[]| | | |]; cbn; apply _. Defined.
(** Process [a] ends (with the reason it was terminated with, or Normal).  Every other process:
    - linked and trapping: exactly one Exit message (and no termination);
    - linked and not trapping: terminated with the reason, unless that is Normal; no message;
    - not linked: neither. *)
Theorem C19_links_propagate :
  forall S w a r, occurs S w -> w_regs w !! a = Some r ->
    exists w', run (drop_process a) w = Done w' tt /\
      forall j rj l, j <> a -> w_regs w !! j = Some rj -> w_loc w !! j = Some l ->
        exists xs, w_loc w' !! j = Some (after_arrival xs l) /\
          if linked w a j then
            if r_trap rj then w_regs w' !! j = Some rj /\ filter is_exit xs = [ISystem (SExit (PLocal a) (final_reason r))]
            else w_regs w' !! j = Some (if bool_decide (final_reason r = RNormal) then rj else terminated (final_reason r) rj) /\
                 filter is_exit xs = []
          else w_regs w' !! j = Some rj /\ filter is_exit xs = [].
Proof.
  intros S w a r Ho E. destruct (drop_spec a w r E) as (w' & Er & Hx); [by apply (occurs_named S)|].
  exists w'. split; [exact Er|]. intros j rj l Hj Ej El. eexists. split; [rewrite (ex_mail _ _ _ _ _ Hx j Hj), El; reflexivity|].
  assert (filter is_exit (down_notices w a (final_reason r) j) = []) as Hd.
  { unfold down_notices. rewrite Ej. generalize (sorted_refs (default ∅ (w_mons w !! a))). intros q.
    induction q as [|[r1 [from d1]] q IH]; [reflexivity|]. cbn. destruct d1; [|exact IH]. case_decide; [|exact IH].
    rewrite filter_cons_False by (cbn; tauto). exact IH. }
  rewrite list.filter_app, Hd, app_nil_r, (ex_regs _ _ _ _ _ Hx j Hj). unfold exit_message. rewrite Ej.
  destruct (linked w a j); [|auto]. cbn. unfold signalled. destruct (r_trap rj) eqn:Et; [auto|].
  split; [|reflexivity]. destruct (final_reason r) eqn:Ef; case_bool_decide; try congruence; reflexivity.
Qed.
Print Assumptions C19_links_propagate.
(** Linking two processes that exist: each is in the other's link set, and nothing else changes. *)
Theorem C19_link :
  forall me i w, me <> i -> is_Some (w_regs w !! me) -> is_Some (w_regs w !! i) ->
    exists w', run (link me (PLocal i)) w = Done w' tt /\
      linked w' me i = true /\ linked w' i me = true /\
      (forall a j, (a, j) <> (me, i) -> (a, j) <> (i, me) -> linked w' a j = linked w a j) /\
      w_regs w' = w_regs w /\ w_loc w' = w_loc w /\ w_mons w' = w_mons w /\ w_names w' = w_names w.
Proof.
  intros me i w Hne Hm Hi. eexists. split; [|split_and!].
  - unfold link. rewrite decide_False by congruence. cbn. unfold exists_proc. rewrite !bool_decide_true by assumption. cbn.
    unfold exists_proc; cbn. rewrite !bool_decide_true by assumption. cbn. reflexivity.
  - unfold linked; cbn. rewrite lookup_insert_ne by congruence. rewrite lookup_insert. cbn. apply bool_decide_true. set_solver.
  - unfold linked; cbn. rewrite lookup_insert. cbn. apply bool_decide_true. set_solver.
  - intros a j H1 H2. unfold linked; cbn. apply bool_decide_ext.
    destruct (decide (a = i)) as [->|Ha]; [rewrite lookup_insert; cbn; rewrite lookup_insert_ne by congruence | rewrite lookup_insert_ne by congruence].
    + rewrite elem_of_union, elem_of_singleton. split; [|auto]. intros [[= ->]|?]; [congruence | assumption].
    + destruct (decide (a = me)) as [->|Ha']; [rewrite lookup_insert; cbn | by rewrite lookup_insert_ne by congruence].
      rewrite elem_of_union, elem_of_singleton. split; [|auto]. intros [[= ->]|?]; [congruence | assumption].
  - reflexivity.
  - reflexivity.
  - reflexivity.
  - reflexivity.
Qed.
Print Assumptions C19_link.
(** Linking to a process that does not exist: a 'noproc' exit signal from it. *)
Theorem C19_link_noproc :
  forall me i w r l, me <> i -> w_regs w !! me = Some r -> w_loc w !! me = Some l -> w_regs w !! i = None ->
    exists w', run (link me (PLocal i)) w = Done w' tt /\
      if r_trap r then w_regs w' !! me = Some r /\ w_loc w' !! me = Some (after_arrival [ISystem (SExit (PLocal i) (RCustom "noproc"))] l)
      else w_regs w' !! me = Some (terminated (RCustom "noproc") r) /\ w_loc w' !! me = Some l.
Proof.
  intros me i w r l Hne Hm Hl Hi. eexists. split.
  - unfold link. rewrite decide_False by congruence. cbn. unfold exists_proc. rewrite bool_decide_true by eauto. cbn.
    unfold exists_proc; cbn. rewrite bool_decide_false by (rewrite Hi; intros [? ?]; discriminate). cbn. reflexivity.
  - unfold exit_linked_op; cbn. rewrite Hm. destruct (r_trap r) eqn:Et; cbn.
    + unfold push; cbn. rewrite Hl. cbn. rewrite lookup_insert. auto.
    + rewrite lookup_insert. unfold terminated. rewrite Et. auto.
Qed.
Print Assumptions C19_link_noproc.
(** The link relation changes only by linking, unlinking and exits: whatever calls are made,
    interleaved in whatever way, [a] keeps [j] in its link set until one of them exits or [j] unlinks
    from [a]; and [j] does not get into it except by a link call between the two. *)
Theorem C19_link_lasts :
  forall S a j w s, occurs S w -> is_Some (w_loc w !! a) -> is_Some (w_loc w !! j) ->
    linked w a j = true -> reach (calls_of S (leaves_link a j)) (Sys w []) s -> linked (s_world s) a j = true.
Proof.
  intros S a j w s Ho Ha Hj Hl Hr. apply (li_linked a j true). eapply (reach_link S a j true w s).
  - constructor; [by eapply occurs_nlinks | by apply (occurs_allocated S w Ho) | by apply (occurs_allocated S w Ho) | exact Hl].
  - eapply rtc_subrel; [|exact Hr]. intros s1 s2 Hs. destruct Hs as [i s1 s2 Ht|p s1 (c & Hc & ->)]; [by eapply step_tick|].
    apply step_call. exists c. split; [|reflexivity]. split; [auto | discriminate].
Qed.
Print Assumptions C19_link_lasts.
Theorem C19_only_link_links :
  forall S a j w s, occurs S w -> is_Some (w_loc w !! a) -> is_Some (w_loc w !! j) ->
    linked w a j = false -> reach (calls_of S (makes_no_link a j)) (Sys w []) s -> linked (s_world s) a j = false.
Proof.
  intros S a j w s Ho Ha Hj Hl Hr. apply (li_linked a j false). eapply (reach_link S a j false w s).
  - constructor; [by eapply occurs_nlinks | by apply (occurs_allocated S w Ho) | by apply (occurs_allocated S w Ho) | exact Hl].
  - eapply rtc_subrel; [|exact Hr]. intros s1 s2 Hs. destruct Hs as [i s1 s2 Ht|p s1 (c & Hc & ->)]; [by eapply step_tick|].
    apply step_call. exists c. split; [|reflexivity]. split; [discriminate | auto].
Qed.
Print Assumptions C19_only_link_links.
(** non-vacuity: 1 and 2 are linked, 3 is not; 2 traps exits; 1 is told to exit and ends. *)
Example C19_example :
  exists w, seq_reachable S0 w /\ linked w 1 2 = true /\ linked w 1 3 = false /\
    let w' := out_world (run (drop_process 1) w) in
    (l_chan <$> w_loc w' !! 2%N) = Some [ISystem (SExit (PLocal 1) (RCustom "x"))] /\
    (l_chan <$> w_loc w' !! 3%N) = Some [] /\ (r_exit <$> w_regs w' !! 2%N) = Some None.
Proof.
  apply (play_some S0 _ [CSpawn 0 false false; CSpawn 0 false false; CSpawn 0 false false; CLink 1 (PLocal 2);
    CSetFlags 2 true; CExit 3 (PLocal 1) (RCustom "x")]). vm_compute. auto 6.
Qed.

(** ** C20. *)
(** The exit of [a] leaves [j] alone. *)
Definition unaffected (w : world) (a j : N) : Prop :=
  forall w', run (drop_process a) w = Done w' tt -> w_regs w' !! j = w_regs w !! j.
Definition C20_statement : Prop :=
  forall S w me i w1, seq_reachable S w -> me <> i -> is_Some (w_regs w !! me) -> is_Some (w_regs w !! i) ->
    run (unlink me (PLocal i)) w = Done w1 tt -> unaffected w1 i me /\ unaffected w1 me i.
Theorem C20_unlink_refuted : ~ C20_statement.
Proof.
  intros H.
  destruct (play_some S0 (fun w => is_Some (w_regs w !! 1%N) /\ is_Some (w_regs w !! 2%N) /\
     let w1 := out_world (run (unlink 1 (PLocal 2)) w) in let w2 := out_world (run (drop_process 1) w1) in
     (r_exit <$> w_regs w1 !! 2%N) = Some None /\ (r_exit <$> w_regs w2 !! 2%N) = Some (Some (RCustom "x")))
     [CSpawn 0 false false; CSpawn 0 false false; CLink 1 (PLocal 2); CExit 2 (PLocal 1) (RCustom "x")])
     as (w & Hw & H1 & H2 & H3 & H4).
  { vm_compute. eauto 6. }
  destruct (H S0 w 1%N 2%N (out_world (run (unlink 1 (PLocal 2)) w)) Hw) as [_ Hu]; [discriminate|exact H1|exact H2|reflexivity|].
  destruct H1 as [r1 E1].
  destruct (drop_spec 1 (out_world (run (unlink 1 (PLocal 2)) w)) r1) as (w2 & E & _).
  - exact E1.
  - exact (occurs_named S0 w (seq_occurs S0 w Hw) 1%N).
  - unfold unaffected in Hu. specialize (Hu w2 E). rewrite E in H4. cbn [out_world] in H4. rewrite Hu in H4. rewrite H3 in H4. discriminate.
Qed.
Print Assumptions C20_unlink_refuted.
(** What does hold: after unlink the caller is not affected by the exit of the other process. *)
Theorem C20_unlink_partial :
  forall S w me i w1, occurs S w -> me <> i -> is_Some (w_regs w !! i) ->
    run (unlink me (PLocal i)) w = Done w1 tt ->
    linked w1 i me = false /\ unaffected w1 i me /\
    (forall a j, (a, j) <> (i, me) -> linked w1 a j = linked w a j) /\ w_regs w1 = w_regs w /\ w_loc w1 = w_loc w.
Proof.
  intros S w me i w1 Ho Hne [r Hi] E. unfold unlink in E. rewrite decide_False in E by congruence. cbn in E. injection E as <-.
  assert (linked (del_link i (PLocal me) w) i me = false) as Hl.
  { unfold linked, del_link; cbn. rewrite lookup_alter. apply bool_decide_false. destruct (w_links w !! i); cbn; set_solver. }
  split; [exact Hl|]. split; [|split; [|auto]].
  - intros w' E. destruct (drop_spec i (del_link i (PLocal me) w) r) as (w2 & E2 & Hx).
    + exact Hi.
    + exact (occurs_named S w Ho i).
    + rewrite E in E2. injection E2 as <-. rewrite (ex_regs _ _ _ _ _ Hx me) by congruence. by rewrite Hl.
  - intros a j Hn. unfold linked, del_link; cbn. apply bool_decide_ext. destruct (decide (a = i)) as [->|Ha].
    + rewrite lookup_alter. destruct (w_links w !! i); cbn; [|tauto]. rewrite elem_of_difference, elem_of_singleton.
      split; [tauto|]. intros Hs. split; [exact Hs|]. intros [= ->]. by apply Hn.
    + by rewrite lookup_alter_ne by congruence.
Qed.
Print Assumptions C20_unlink_partial.
Example C20_example :
  let w := out_world (run (link 1 (PLocal 2)) two) in
  linked w 2 1 = true /\ linked (out_world (run (unlink 1 (PLocal 2)) w)) 2 1 = false.
Proof. vm_compute. auto. Qed.

(** ** C21. *)
(** [me] monitors the existing process [target] by pid or by name.  Then any calls are made,
    interleaved in any way, except that neither process ends and [me] does not remove the monitor.
    Then [target] ends.  Before that, [me] has no notice with this reference to receive; afterwards
    exactly one, with the destination used and the reason of the exit. *)
Theorem C21_monitor_exactly_once :
  forall S w0 me target d, occurs S w0 -> me <> target ->
    is_Some (w_regs w0 !! me) -> is_Some (w_loc w0 !! me) -> is_Some (w_regs w0 !! target) -> means w0 d target ->
    exists w1 k, run (monitor me d) w0 = Done w1 (RLocal k) /\
      forall s r, reach (calls_of S (leaves_monitor k me target)) (Sys w1 []) s -> w_regs (s_world s) !! target = Some r ->
        exists w2 l l2, run (drop_process target) (s_world s) = Done w2 tt /\
          w_loc (s_world s) !! me = Some l /\ w_loc w2 !! me = Some l2 /\
          notices k l = [] /\ notices k l2 = [PSys (SProcessDown d (RLocal k) (final_reason r))].
Proof.
  intros S w0 me target d Ho Hne Hm Hl Ht Hd.
  destruct (monitor_alive S me target d w0 Ho Hne Hm Hl Ht Hd) as (w1 & E & Hw).
  exists w1, (w_next_ref w0). split; [exact E|]. intros s r Hr Ert.
  eapply watched_drop; [|..|exact Hne|exact Ert].
  - eapply reach_watching; [exact Hw | exact Hr].
  - assert (occurs S w1) as Ho1.
    { apply (occurs_run S w0 (CMonitor me d)); [exact Ho|]. eapply (happens_done S _ _ _ (VRef (RLocal (w_next_ref w0)))).
      cbn [call_prog]. unfold ret_as. rewrite run_bind, E. reflexivity. }
    destruct Ho1 as [ts Hts]. pose proof (occurs_named S w1 (ex_intro _ ts Hts)) as Hn1.
    refine (api_reach S (fun w w' => all_named w -> all_named w') (Sys w1 []) s _ _ _ _ _ Hn1); auto.
    + intros; by eapply step1_named.
    + constructor.
    + eapply rtc_subrel; [|exact Hr]. intros s1 s2 Hs. destruct Hs as [i s1 s2 Htk|p s1 (c & Hc & ->)]; [by eapply step_tick|].
      apply step_call. by exists c.
Qed.
Print Assumptions C21_monitor_exactly_once.
(** Monitoring a process that does not exist: the 'noproc' notice is there at once. *)
Theorem C21_monitor_noproc :
  forall S w0 me target d, occurs S w0 -> me <> target -> is_Some (w_loc w0 !! me) -> w_regs w0 !! target = None -> means w0 d target ->
    exists w1 k l l1, run (monitor me d) w0 = Done w1 (RLocal k) /\ w_loc w0 !! me = Some l /\ w_loc w1 !! me = Some l1 /\
      notices k l = [] /\ notices k l1 = [PSys (SProcessDown d (RLocal k) (RCustom "noproc"))].
Proof.
  intros S w0 me target d Ho Hne Hl Ht Hd. destruct (monitor_dead S me target d w0 Ho Hne Hl Ht Hd) as (w1 & l & l1 & H).
  exists w1, (w_next_ref w0), l, l1. exact H.
Qed.
Print Assumptions C21_monitor_noproc.
Theorem C21_monitor_unknown_name :
  forall S w0 me n, occurs S w0 -> is_Some (w_loc w0 !! me) -> w_names w0 !! n = None ->
    exists w1 k l l1, run (monitor me (DNamed n NLocal)) w0 = Done w1 (RLocal k) /\ w_loc w0 !! me = Some l /\ w_loc w1 !! me = Some l1 /\
      notices k l = [] /\ notices k l1 = [PSys (SProcessDown (DNamed n NLocal) (RLocal k) (RCustom "noproc"))].
Proof.
  intros S w0 me n Ho [l Hl] Hn. pose proof (occurs_unmentioned S (w_next_ref w0) w0 Ho ltac:(lia)) as [_ _ U3 U4].
  set (k := w_next_ref w0) in *.
  assert (Forall (fun x => ~ mentions k x) (l_items l ++ l_chan l)) as Hf.
  { apply Forall_forall. intros x Hx. specialize (U4 me l x Hl Hx). destruct x as [| |[]| | | |]; cbn in *; auto. }
  apply Forall_app in Hf as [F1 F2].
  set (l1 := upd_monitors (<[RLocal k := MForProcess None]>) l).
  exists (up_aliases (delete k) (push me (IProcessDown (DNamed n NLocal) (RLocal k) (RCustom "noproc"))
     (up_loc (alter (upd_monitors (<[RLocal k := MForProcess None]>)) me) (up_next_ref N.succ w0)))), k, l,
     (after_arrival ([] ++ [IProcessDown (DNamed n NLocal) (RLocal k) (RCustom "noproc")]) l1).
  split; [|split; [exact Hl|split; [|split]]].
  - cbn. rewrite Hn. reflexivity.
  - unfold push; cbn. rewrite lookup_alter, Hl. cbn. by rewrite lookup_insert.
  - by apply notices_none.
  - apply (notices_one k l1 [] _ _ []); [|constructor..]. split_and!; cbn; auto. rewrite lookup_insert. eauto.
Qed.
Print Assumptions C21_monitor_unknown_name.
(** non-vacuity: 1 monitors 2 by name, both send messages, 2 is terminated by 3 and ends *)
Example C21_example :
  exists w, seq_reachable S0 w /\ means w (DNamed "b" NLocal) 2 /\
    let w1 := out_world (run (monitor 1 (DNamed "b" NLocal)) w) in
    let w2 := out_world (run (exit 3 (PLocal 2) (RCustom "x")) w1) in
    let w3 := out_world (run (drop_process 2) w2) in
    (notices 1 <$> w_loc w2 !! 1%N) = Some [] /\
    (notices 1 <$> w_loc w3 !! 1%N) = Some [PSys (SProcessDown (DNamed "b" NLocal) (RLocal 1) (RCustom "x"))].
Proof.
  apply (play_some S0 (fun w => means w (DNamed "b" NLocal) 2 /\ _) [CSpawn 0 false false; CSpawn 0 false false; CSpawn 0 false false; CRegister (PLocal 2) "b"]).
  vm_compute. split; [right; eauto | auto].
Qed.

(** ** C22: what receivers get, in every schedule. *)
Definition got_notice (k : N) (v : val) : Prop :=
  match v with VReceived (Some (Found (MSystem m))) => about k (PSys m) | _ => False end.
Global Instance got_notice_dec k v : Decision (got_notice k v).
Proof.
  destruct v as [| | | | | | | | | | |[[[|m]| |]|]| |]; cbn [got_notice]; [..|exact (about_dec k (PSys m))| | | | |]; apply _.
Defined.
Lemma received_got k v : received_down k v = if decide (got_notice k v) then 1 else 0.
Proof.
  destruct v as [| | | | | | | | | | |[[[|m]| |]|]| |]; cbn; try (by rewrite decide_False by auto).
  destruct m; cbn; try (by rewrite decide_False by auto); by repeat case_decide.
Qed.
Lemma received_sum k s : list_sum (map (returned (received_down k)) (s_threads s)) = length (filter (got_notice k) (returned_vals s)).
Proof.
  unfold returned_vals. destruct s as [w ts]; cbn [s_threads]. induction ts as [|p ts IH]; [reflexivity|].
  change (list_sum (map (returned (received_down k)) (p :: ts))) with (returned (received_down k) p + list_sum (map (returned (received_down k)) ts)).
  rewrite IH. destruct p as [v| |]; cbn [omap list_omap returned]; [|reflexivity..].
  rewrite received_got, filter_cons. case_decide; cbn; lia.
Qed.
(** At most one down notice for a monitor is ever received, by anybody, in any schedule. *)
Theorem C22_received_at_most_once_partial :
  forall S k s, reachable S s -> length (filter (got_notice k) (returned_vals s)) <= 1.
Proof.
  intros S k s Hr. destruct (reachable_rcv S k s Hr) as (hs & H1 & H2). rewrite <- received_sum.
  pose proof (returned_le _ _ _ _ _ H1). lia.
Qed.
Print Assumptions C22_received_at_most_once_partial.

(** ** C23. *)
(** After demonitor returned, nobody ever receives a notice with this reference. *)
Definition C23_statement : Prop :=
  forall S w me k w1 T f strict w2 m, seq_reachable S w -> is_Some (w_regs w !! me) ->
    run (demonitor me (RLocal k)) w = Done w1 tt ->
    run (try_receive S me T f strict) w1 = Done w2 (Some (Found (MSystem m))) -> ~ about k (PSys m).
(** Violated: a receive that skipped over the notice has already turned it into a plain message. *)
Theorem C23_demonitor_refuted : ~ C23_statement.
Proof.
  intros H.
  destruct (play_some S0 (fun w => is_Some (w_regs w !! 1%N) /\
     match run (demonitor 1 (RLocal 1)) w with
     | Done w1 tt => match run (try_receive S0 1 0 (fun _ => true) false) w1 with
                     | Done _ (Some (Found (MSystem m))) => m = SProcessDown (DPid (PLocal 2)) (RLocal 1) RNormal
                     | _ => False end
     | _ => False end)
     [CSpawn 0 false false; CSpawn 0 false false; CMonitor 1 (DPid (PLocal 2)); CFinish 2; CReceive 1 0 (fun _ => false) false])
     as (w & Hw & H1 & H2).
  { vm_compute. split; [eauto | reflexivity]. }
  destruct (run (demonitor 1 (RLocal 1)) w) as [w1 []| |] eqn:E1; try contradiction.
  destruct (run (try_receive S0 1 0 (fun _ => true) false) w1) as [w2 [[[|m]| |]|]| |] eqn:E2; try contradiction.
  eapply (H S0 w 1%N 1%N w1 _ _ _ w2 m Hw H1 E1 E2). by rewrite H2.
Qed.
Print Assumptions C23_demonitor_refuted.
(** What does hold, in every schedule: if the monitor is still installed when it is removed (no
    receive has looked at its notice yet), then no notice with this reference is ever received -
    not by calls already in progress, not by later ones -, even if it is already queued. *)
Lemma demonitor_rcv k me w w1 : run (demonitor me (RLocal k)) w = Done w1 tt -> rcv_cnt k w1 <= rcv_cnt k (up_loc (alter (upd_monitors (delete (RLocal k))) me) w).
Proof.
  unfold demonitor. rewrite run_bind. cbn [take_monitor run atom fst snd]. destruct (match w_loc w !! me with Some l => l_monitors l !! RLocal k | None => None end) as [[[p|]|nd]|].
  - unfold monitor_destroy. cbn. destruct (pid_is_local p); cbn.
    + intros [= <-]. apply rcv_same; cbn; [lia|reflexivity].
    + match goal with |- context [lookup_remote ?a ?b] => destruct (lookup_remote a b) as [[? ?]|] end; cbn; intros [= <-];
        apply rcv_same; unfold send_frame, hand_out; cbn; repeat case_match; cbn; lia || reflexivity.
  - cbn. by intros [= <-].
  - cbn. discriminate.
  - cbn. by intros [= <-].
Qed.
Theorem C23_demonitor_partial :
  forall S s me k l w1 s', reachable S s ->
    w_loc (s_world s) !! me = Some l -> is_Some (l_monitors l !! RLocal k) ->
    run (demonitor me (RLocal k)) (s_world s) = Done w1 tt ->
    reach (any_call S) (Sys w1 (s_threads s)) s' ->
    filter (got_notice k) (returned_vals s') = [].
Proof.
  intros S s me k l w1 s' Hr Hl [m Hm] E H'. destruct (reachable_rcv S k s Hr) as (hs & H1 & H2).
  pose proof (demonitor_rcv k me (s_world s) w1 E) as Hd.
  assert (rcv_cnt k (up_loc (alter (upd_monitors (delete (RLocal k))) me) (s_world s)) + 1 <= rcv_cnt k (s_world s)) as Hdec.
  { unfold rcv_cnt; cbn.
    assert (alter (upd_monitors (delete (RLocal k))) me (w_loc (s_world s)) = <[me := upd_monitors (delete (RLocal k)) l]> (w_loc (s_world s))) as ->.
    { apply map_eq; intros j. destruct (decide (j = me)) as [->|Hne].
      - by rewrite lookup_alter, lookup_insert, Hl.
      - by rewrite lookup_alter_ne, lookup_insert_ne by congruence. }
    pose proof (msum_insert (mcount k) (w_loc (s_world s)) me (upd_monitors (delete (RLocal k)) l)) as Hi. rewrite Hl in Hi.
    assert (mcount k (upd_monitors (delete (RLocal k)) l) + 1 = mcount k l) as Hmc.
    { unfold mcount, has; cbn [upd_monitors l_monitors l_items l_chan]. rewrite lookup_delete, Hm. lia. }
    lia. }
  destruct (reach_tok_state (fun _ => True) (rcv_cnt k) (received_down k) (any_call S) (Sys w1 (s_threads s)) s' hs
     (fun p '(ex_intro _ c E) => ltac:(rewrite E; apply call_tok_rcv)) H' I H1) as (hs' & _ & A2 & A3).
  cbn [s_world] in A3. pose proof (returned_le _ _ _ _ _ A2) as A4. rewrite received_sum in A4. apply nil_length_inv. lia.
Qed.
Print Assumptions C23_demonitor_partial.
Example C23_example :
  exists w, seq_reachable S0 w /\ (exists l, w_loc w !! 1%N = Some l /\ is_Some (l_monitors l !! RLocal 1) /\
     notices 1 l = [PSys (SProcessDown (DPid (PLocal 2)) (RLocal 1) RNormal)]) /\
     (notices 1 <$> w_loc (out_world (run (demonitor 1 (RLocal 1)) w)) !! 1%N) = Some [].
Proof.
  apply (play_some S0 (fun w => _ /\ _) [CSpawn 0 false false; CSpawn 0 false false; CMonitor 1 (DPid (PLocal 2)); CFinish 2]).
  vm_compute. split; [eexists; split; [reflexivity|]; eauto | reflexivity].
Qed.
