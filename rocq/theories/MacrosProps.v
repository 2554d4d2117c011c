(** C96: #[hydra::main] and #[hydra::test]. *)
From stdpp Require Import base list gmap numbers strings countable sorting relations.
From Coq Require Import Lia.
From Verif Require Import Prog ProgProofs ProgInv Types Mailbox MailboxSpec MailboxProofs World ProcApi NodeApi Api Steps Hist Labels Play
  SchedSpec SchedProps ProcSpec ProcProofs FreshProofs MonProofs ProcProps LifeProps GenServer GenServerSpec GenServerProps Loop Application AppSpec AppProps
  OrderProps TieSpec TieProps Kernel KernelProps Macros.

(** What has arrived at process [me] since [w1]. *)
Definition arrived_at (me : N) (w1 w : world) : list item :=
  omap (fun x : N * item => if decide (x.1 = me) then Some x.2 else None) (drop (length (w_log w1)) (w_log w)).
Lemma test_finishes S T p l0 arr why : serde_typed S -> forall n ms qs l, length (mailbox l) = n ->
  loops S T (test_turn p) l0 arr ms qs LServing l -> PSys (SExit p why) ∈ mailbox l -> Forall (fun x => is_Some (read S T x)) (mailbox l) ->
  exists ms' qs' why' l', loops S T (test_turn p) l0 arr ms' qs' (LDone why') l'.
Proof.
  intros Hty n. induction n as [n IH] using lt_wf_ind. intros ms qs l Hn H Hin Hf.
  destruct (mailbox l) as [|x rest] eqn:E; [by apply elem_of_nil in Hin|]. inversion Hf as [|? ? [m Er] Hf']; subst.
  pose proof (loops_progress S T _ Hty _ _ _ _ _ _ _ H E) as Hp. rewrite Er in Hp. destruct Hp as (l1 & Hl1 & H1).
  destruct (exit_of p m) eqn:Ee.
  - destruct m as [v|[e why'|d k why'|nd k]]; cbn in Ee; try discriminate. apply bool_decide_eq_true in Ee as ->.
    cbn in H1. rewrite decide_True in H1 by done. eauto.
  - assert (snd (test_turn p m) = LServing) as E1.
    { destruct m as [v|[e why'|d k why'|nd k]]; cbn in *; try done. apply bool_decide_eq_false in Ee. by rewrite decide_False. }
    rewrite E1 in H1. apply elem_of_cons in Hin as [<-|Hin].
    + cbn in Er. injection Er as <-. cbn in Ee. by rewrite bool_decide_true in Ee.
    + rewrite <- Hl1 in Hin, Hf'. apply (IH (length rest)) with (ms := ms ++ [m]) (qs := qs ++ fst (test_turn p m)) (l := l1); auto.
      { by rewrite Hl1. }
Qed.
Lemma start_tied S w me r : occurs S w -> w_regs w !! me = Some r -> is_Some (w_loc w !! me) ->
  exists w1 i, run (macro_start me) w = Done w1 (PLocal i) /\ occurs S w1 /\ i <> me /\ linked w1 i me = true /\ run (alive (PLocal i)) w1 = Done w1 true /\
    w_regs w1 !! i = Some new_reg /\ (exists r', w_regs w1 !! me = Some r' /\ r_trap r' = true) /\ is_Some (w_loc w1 !! i) /\ w_loc w1 !! me = w_loc w !! me.
Proof.
  intros Ho Hr Hl.
  assert (exists w0, run (set_flags me true) w = Done w0 tt /\ occurs S w0 /\ w_loc w0 = w_loc w /\ exists r', w_regs w0 !! me = Some r' /\ r_trap r' = true) as (w0 & E0 & Ho0 & H2 & r' & H1 & H3).
  { eexists. split; [reflexivity|]. cbn. rewrite lookup_alter, Hr. cbn. split_and!; try reflexivity.
    - apply (occurs_run S w (CSetFlags me true) _ Ho). eapply happens_done. reflexivity.
    - eexists. split; reflexivity. }
  unfold macro_start. rewrite run_bind, E0.
  destruct (C30_spawned S w0 me true false Ho0) as (w1 & E1 & B1 & B2 & B3 & B4 & B5 & B6 & B7 & B8 & B9 & B10); [rewrite H2; auto|].
  rewrite run_bind, E1. assert (me <> w_next_pid w0) as Hne.
  { intros E. rewrite H2, <- E in B1. rewrite B1 in Hl. by destruct Hl. }
  exists w1, (w_next_pid w0). cbn [run fst]. split_and!; try done.
  - apply (occurs_run S w0 (CSpawn me true false) _ Ho0). eapply happens_done. cbn [call_prog]. unfold ret_as. rewrite run_bind, E1. reflexivity.
  - unfold linked. apply bool_decide_eq_true. apply B8. right. split; [done|]. auto.
  - rewrite B6. apply lookup_insert.
  - exists r'. rewrite B6, lookup_insert_ne by congruence. auto.
  - rewrite (B10 me Hne), H2. cbn. by destruct (w_loc w !! me).
Qed.
Lemma verdict_of S T i l0 arrived why : serde_typed S -> ISystem (SExit (PLocal i) why) ∈ arrived ->
  Forall (fun x => is_Some (read S T x)) (mailbox (after_arrival arrived l0)) ->
  (exists handled requests l, loops S T (run_turn (PLocal i) None) l0 arrived handled requests (LDone tt) l) /\
  (exists handled requests why' l, loops S T (test_turn (PLocal i)) l0 arrived handled requests (LDone why') l) /\
  ((forall why', PSys (SExit (PLocal i) why') ∈ mailbox (after_arrival arrived l0) -> why' = why) ->
   forall handled requests s l, loops S T (test_turn (PLocal i)) l0 arrived handled requests s l -> s <> LServing ->
     s = LDone why /\ (test_verdict (test_answer (ROk (PLocal i)) s) = Fails <-> exists text, why = RCustom text /\ text <> "shutdown"%string)).
Proof.
  intros Hty Hin Hf.
  pose proof (exit_pending (PLocal i) why arrived l0 Hin) as Hp. split_and!.
  - pose proof (loops_arrivals S T _ arrived _ _ _ _ _ _ (loops_init S T (run_turn (PLocal i) None) l0)) as H. cbn [app] in H.
    destruct (run_finishes S T (PLocal i) None l0 arrived Hty _ _ _ _ _ eq_refl H Hp) as (ms & qs & s & l & G1 & _ & G3). rewrite (G3 Hf) in G1. eauto.
  - pose proof (loops_arrivals S T _ arrived _ _ _ _ _ _ (loops_init S T (test_turn (PLocal i)) l0)) as H. cbn [app] in H.
    apply (test_finishes S T (PLocal i) l0 arrived why Hty _ _ _ _ eq_refl H Hp Hf).
  - intros Hu ms qs s l H Hns. pose proof (loops_order S T _ Hty _ _ _ _ _ _ H) as (d & G1 & G2 & _ & G4). destruct (G2 []) as [rest Hrest]. rewrite arrive_nil in Hrest.
    pose proof (C62_test S T (PLocal i) _ _ _ _ _ _ Hty H) as Hc. destruct s as [|why'|x]; [done| |].
    + destruct Hc as ((before & Eb & _) & Hv & _). assert (why' = why) as ->; [|by split].
      apply Hu. rewrite Hrest. apply elem_of_app. left.
      subst ms. rewrite map_app in G1. cbn in G1. assert (Some (MSystem (SExit (PLocal i) why')) ∈ map (read S T) d) as Hd by (rewrite G1; apply elem_of_app; right; by apply elem_of_list_singleton).
      apply elem_of_list_In, in_map_iff in Hd as (y & Hy & Hd). apply elem_of_list_In in Hd.
      destruct y as [b|v|m']; cbn in Hy; [destruct (de S T b); discriminate|destruct (decide (v_type v = T)); discriminate|]. by injection Hy as ->.
    + exfalso. destruct (G4 x eq_refl) as [(_ & p & r1 & F1 & F2)|[y Hy]].
      * rewrite F1 in Hf. apply Forall_app in Hf as [_ Hf]. inversion Hf as [|? ? [z Hz]]; subst. congruence.
      * destruct y as [v|[e z|d' k z|nd k]]; cbn in Hy; try discriminate. destruct (decide (e = PLocal i)); discriminate.
Qed.
(** Marked functions, once the application process is registered and as long as it keeps its flags and its link: in every
    schedule of every other calls, when the body has ended - with reason [why] - and the calls in progress have returned, then
    what has arrived is enough for #[hydra::main] to return and for the test to have its verdict, which is about exactly that reason;
    the test fails exactly if the reason is custom and not "shutdown".  (No other type of message, and no forged exit from the body's
    process, is sent to the application process; see C62 for what these do.) *)
Theorem C96_body_decides_partial :
  forall S T w me r l0, serde_typed S -> occurs S w -> w_regs w !! me = Some r -> w_loc w !! me = Some l0 ->
    exists w1 i, run (macro_start me) w = Done w1 (PLocal i) /\ run (alive (PLocal i)) w1 = Done w1 true /\
    forall why s1 s2 s3, reach (calls_of S (keeps_tie i me)) (Sys w1 []) s1 -> sys_step (calls_of S (keeps_tie i me)) s1 s2 -> leaves i why s1 s2 ->
      reach (calls_of S (keeps_tie i me)) s2 s3 -> settled s3 -> is_Some (w_regs (s_world s3) !! me) ->
      let arrived := arrived_at me w1 (s_world s3) in
      Forall (fun x => is_Some (read S T x)) (mailbox (after_arrival arrived l0)) ->
      (exists handled requests l, loops S T (run_turn (PLocal i) None) l0 arrived handled requests (LDone tt) l) /\
      (exists handled requests why' l, loops S T (test_turn (PLocal i)) l0 arrived handled requests (LDone why') l) /\
      ((forall why', PSys (SExit (PLocal i) why') ∈ mailbox (after_arrival arrived l0) -> why' = why) ->
       forall handled requests s l, loops S T (test_turn (PLocal i)) l0 arrived handled requests s l -> s <> LServing ->
         s = LDone why /\ (test_verdict (test_answer (ROk (PLocal i)) s) = Fails <-> exists text, why = RCustom text /\ text <> "shutdown"%string)).
Proof.
  intros S T w me r l0 Hty Ho Hr Hl.
  destruct (start_tied S w me r Ho Hr ltac:(eauto)) as (w1 & i & E1 & Ho1 & Hne & Hlk & Hal & Hri & (r' & Hr' & Htr) & Hli & Hlm).
  exists w1, i. split; [exact E1|]. split; [exact Hal|]. intros why s1 s2 s3 H1 H12 Hlv H23 Hset Hme arrived Hf.
  assert (told i me (r_trap r') why (s_world s2) (s_world s3)) as Ht.
  { eapply (C87_linked_told_partial S i me w1 new_reg r' why s1 s2 s3); try done. rewrite Hlm. eauto. }
  unfold told in Ht. destruct Hme as [rm Hme]. rewrite Hme, Htr in Ht.
  assert (length (w_log w1) <= length (w_log (s_world s2))) as Hlen.
  { assert (reach (calls_of S (keeps_tie i me)) (Sys w1 []) s2) as H by (eapply rtc_r; eassumption).
    pose proof (reach_log S _ (Sys w1 []) s2 (Forall_nil_2 _) H) as Hp. apply prefix_length in Hp. exact Hp. }
  assert (ISystem (SExit (PLocal i) why) ∈ arrived) as Hin.
  { unfold arrived, arrived_at. apply elem_of_list_omap. exists (me, ISystem (SExit (PLocal i) why)). split; [|cbn; by rewrite decide_True].
    apply elem_of_list_lookup in Ht as [k Hk]. rewrite lookup_drop in Hk. apply elem_of_list_lookup. exists (length (w_log (s_world s2)) - length (w_log w1) + k).
    rewrite lookup_drop. rewrite <- Hk. f_equal. lia. }
  by apply verdict_of.
Qed.
Print Assumptions C96_body_decides_partial.
(** non-vacuity: process 1 runs a test, its body (2) panics while another process sends 1 a message of its type *)
Definition app_world : world := out_world (run (macro_start 1) (out_world (run (call_prog S0 (CSpawn 0 false false)) world0))).
Example C96_example :
  (exists w r l, occurs S0 w /\ w_regs w !! 1%N = Some r /\ w_loc w !! 1%N = Some l /\ run (macro_start 1) w = Done app_world (PLocal 2)) /\
  exists s1 s2 s3, reach (calls_of S0 (keeps_tie 2 1)) (Sys app_world []) s1 /\ sys_step (calls_of S0 (keeps_tie 2 1)) s1 s2 /\
    leaves 2 (RCustom "boom") s1 s2 /\ reach (calls_of S0 (keeps_tie 2 1)) s2 s3 /\ settled s3 /\
    arrived_at 1 app_world (s_world s3) = [IUserLocal (Val 7 7); ISystem (SExit (PLocal 2) (RCustom "boom"))] /\
    Forall (fun x => is_Some (read S0 7 x)) (mailbox (after_arrival [IUserLocal (Val 7 7); ISystem (SExit (PLocal 2) (RCustom "boom"))] new_plocal)).
Proof.
  split.
  - destruct (play_some S0 (fun w => w = out_world (run (call_prog S0 (CSpawn 0 false false)) world0) /\
      match w_regs w !! 1%N, w_loc w !! 1%N with Some _, Some _ => True | _, _ => False end /\
      match run (macro_start 1) w with Done _ p => p = PLocal 2 | _ => False end) [CSpawn 0 false false]) as (w & Hw & Ew & H & H2); [vm_compute; auto|].
    destruct (w_regs w !! 1%N) as [r|] eqn:E1; [|done]. destruct (w_loc w !! 1%N) as [l|] eqn:E2; [|done].
    exists w, r, l. split_and!; auto; [by apply seq_occurs|]. unfold app_world. rewrite <- Ew. destruct (run (macro_start 1) w); try done. cbn. by subst.
  - destruct (tie_example S0 (keeps_tie 2 1) app_world [CCrash 2 (RCustom "boom"); CSend (DsOne (DPid (PLocal 1))) (Val 7 7)] [0] 0 [0; 1; 0; 0; 0; 0; 0]
      (fun s1 s2 s3 => leavesb 2 s1 s2 = Some (RCustom "boom") /\ settledb s3 = true /\
        arrived_at 1 app_world (s_world s3) = [IUserLocal (Val 7 7); ISystem (SExit (PLocal 2) (RCustom "boom"))])) as (s1 & s2 & s3 & H1 & H2 & H3 & H4 & H5 & H6).
    { repeat constructor. }
    { vm_compute. auto. }
    exists s1, s2, s3. split; [exact H1|]. split; [exact H2|]. split; [by apply leavesb_leaves|]. split; [exact H3|]. split; [by apply settledb_settled|].
    split; [exact H6|]. vm_compute. repeat constructor; eauto.
Qed.
(** #[hydra::main] is documented to run the function; that it returns when the body has ended is false, because spawn starts the task
    (process.rs:485) before it registers the process (:492) and the runtime of run has several threads.  A body that ends in between is
    never heard of again ... *)
Definition C96_main_statement : Prop :=
  forall S w me r s i, seq_reachable S w -> w_regs w !! me = Some r -> r_trap r = true -> is_Some (w_loc w !! me) ->
    reach (calls_of S (fun c => c = CFinish i)) (Sys w [call_prog S (CSpawn me true false)]) s -> settled s ->
    s_threads s !! 0 = Some (Ret (VPid (PLocal i))) -> i ∉ w_running (s_world s) ->
    exists why, (me, ISystem (SExit (PLocal i) why)) ∈ w_log (s_world s).
Lemma two_calls S (w : world) c1 c2 l (P : sys world val -> Prop) :
  match exec l (Sys w [call_prog S c1; call_prog S c2]) with Some s => P s | None => False end ->
  exists s, reach (calls_of S (fun c => c = c2)) (Sys w [call_prog S c1]) s /\ P s.
Proof.
  destruct (exec l _) as [s|] eqn:E; [|done]. intros H. exists s. split; [|done].
  eapply rtc_l; [|eapply exec_reach; exact E]. apply (step_call (calls_of S (fun c => c = c2)) (call_prog S c2) (Sys w [call_prog S c1])). by exists c2.
Qed.
Theorem C96_main_refuted : ~ C96_main_statement.
Proof.
  intros H. set (P := fun s : sys world val => settledb s = true /\
      (match s_threads s !! 0 with Some (Ret (VPid p)) => p = PLocal 2 | _ => False end) /\ bool_decide (2%N ∈ w_running (s_world s)) = false /\ w_log (s_world s) = []).
  destruct (play_some S0 (fun w => (match w_regs w !! 1%N with Some r => r_trap r = true | None => False end) /\ (match w_loc w !! 1%N with Some _ => True | None => False end) /\
      match exec [0; 0; 0; 0; 1; 1; 0] (Sys w [call_prog S0 (CSpawn 1 true false); call_prog S0 (CFinish 2)]) with Some s => P s | None => False end)
    [CSpawn 0 false false; CSetFlags 1 true]) as (w & Hw & H1 & H2 & H3); [vm_compute; auto 10|].
  destruct (w_regs w !! 1%N) as [r|] eqn:Er; [|done]. destruct (w_loc w !! 1%N) as [l|] eqn:El; [|done].
  apply two_calls in H3 as (s & Hs & P1 & P2 & P3 & P4). destruct (s_threads s !! 0) as [[[]| |]|] eqn:Et; try done. subst p.
  destruct (H S0 w 1%N r s 2%N Hw Er H1 ltac:(eauto) Hs (settledb_settled _ P1) Et) as [why Hin].
  - by apply bool_decide_eq_false in P3.
  - rewrite P4 in Hin. by apply elem_of_nil in Hin.
Qed.
Print Assumptions C96_main_refuted.
(** ... and an application process that sets its flags in between has not set them: it will not hear of a body that ends normally. *)
Definition C96_trap_statement : Prop :=
  forall S w s i, seq_reachable S w -> reach (calls_of S (fun c => c = CSetFlags i true)) (Sys w [call_prog S (CSpawn 0 false false)]) s ->
    results s [VPid (PLocal i); VUnit] -> run (flags i) (s_world s) = Done (s_world s) true.
Theorem C96_trap_refuted : ~ C96_trap_statement.
Proof.
  intros H.
  destruct (two_calls S0 world0 (CSpawn 0 false false) (CSetFlags 1 true) [0; 0; 1; 0]
    (fun s => results s [VPid (PLocal 1); VUnit] /\ match w_regs (s_world s) !! 1%N with Some r => r_trap r = false | None => False end)) as (s & Hs & H1 & H2).
  { vm_compute. auto. }
  pose proof (H S0 world0 s 1%N ltac:(exists []; constructor) Hs H1) as E. cbn in E. destruct (w_regs (s_world s) !! 1%N) as [r|]; [|done].
  injection E as E. congruence.
Qed.
Print Assumptions C96_trap_refuted.
Example C96_waits_for_ever :
  exists s, reachable S0 s /\ settledb s = true /\ bool_decide (2%N ∈ w_running (s_world s)) = false /\ bool_decide (1%N ∈ w_running (s_world s)) = true /\ w_log (s_world s) = [].
Proof.
  apply (sched_some S0 (fun s => _ /\ _) [CSpawn 0 false false; CSetFlags 1 true; CSpawn 1 true false; CFinish 2] [0; 0; 1; 0; 2; 2; 2; 2; 2; 3; 3; 3; 3; 3; 3; 3]).
  vm_compute. auto.
Qed.
(** A test whose body panics fails - except if the panic's text is "shutdown". *)
Definition C96_test_statement : Prop :=
  forall S T w i text w1 l handled requests l', serde_typed S -> seq_reachable S w -> is_Some (w_regs w !! i) -> w_loc w1 !! 1%N = Some l ->
    happens S (CCrash i (RCustom text)) w w1 ->
    loops S T (test_turn (PLocal i)) l [] handled requests (LDone (RCustom text)) l' ->
    test_verdict (test_answer (ROk (PLocal i)) (LDone (RCustom text))) = Fails.
Theorem C96_test_refuted : ~ C96_test_statement.
Proof.
  intros H.
  destruct (play_some S0 (fun w => (match w_regs w !! 2%N with Some _ => True | None => False end) /\
      match run (call_prog S0 (CCrash 2 (RCustom "shutdown"))) w with
      | Done w1 _ => match w_loc w1 !! 1%N with Some l => receive S0 7 true l = (Found (MSystem (SExit (PLocal 2) (RCustom "shutdown"))), new_plocal) | None => False end
      | _ => False end) [CSpawn 0 false false; CSetFlags 1 true; CSpawn 1 true false]) as (w & Hw & H1 & H2); [vm_compute; auto|].
  destruct (w_regs w !! 2%N) as [r|] eqn:Er; [|done]. destruct (run _ w) as [w1 v| |] eqn:Ec; try done. destruct (w_loc w1 !! 1%N) as [l|] eqn:El; [|done].
  pose proof (loops_turn S0 7 (test_turn (PLocal 2)) l _ _ _ _ _ _ (loops_init S0 7 (test_turn (PLocal 2)) l) H2) as Hl. cbn [test_turn] in Hl. rewrite decide_True in Hl by done. cbn [snd] in Hl.
  pose proof (H S0 7%N w 2%N "shutdown"%string w1 l _ _ _ S0_typed Hw ltac:(rewrite Er; eauto) El ltac:(eapply happens_done; exact Ec) Hl) as E.
  cbn in E. discriminate.
Qed.
Print Assumptions C96_test_refuted.
