(** Property theorems C62: application.rs. *)
From stdpp Require Import base list gmap numbers strings countable sorting relations.
From Coq Require Import Lia.
From Verif Require Import Prog ProgProofs ProgInv Types Mailbox MailboxSpec MailboxProofs World ProcApi NodeApi Api Steps Hist Play
  SchedSpec SchedProps ProcSpec ProcProofs FreshProofs MonProofs ProcProps LifeProps GenServer GenServerSpec GenServerProps Loop Application AppSpec.

Lemma visible_app q : forall M xs, exists rest, visible M (q ++ xs) = visible M q ++ rest.
Proof.
  induction q as [|x q IH]; intros M xs; [by eexists|]. cbn [app].
  destruct x; cbn [visible]; try (destruct (IH M xs) as [rest ->]; by eexists); case_decide; try (destruct (IH M xs) as [rest ->]; by eexists).
  - destruct (IH (M ∖ {[r]}) xs) as [rest ->]. by eexists.
  - destruct (IH (M ∖ {[r]}) xs) as [rest ->]. by eexists.
Qed.
Section loop.
  Context {Q R : Type} (S : serde) (T : N) (turn : message -> list Q * lstatus R) (Hty : serde_typed S).
  Lemma loops_order l0 arr ms qs s l : loops S T turn l0 arr ms qs s l ->
    exists done, map (read S T) done = map Some ms /\
      (forall xs, exists rest, mailbox (arrive xs (after_arrival arr l0)) = done ++ rest) /\
      (s = LServing -> forall xs, mailbox (arrive xs (after_arrival arr l0)) = done ++ mailbox (arrive xs l)) /\
      (forall m, s = LCrashed m -> (m = "Unsupported message type!"%string /\ exists p rest, mailbox (after_arrival arr l0) = done ++ p :: rest /\ read S T p = None) \/
                                   exists x, snd (turn x) = LCrashed m).
  Proof.
    induction 1 as [|arr ms es s l x H IH|arr ms es l m l1 H IH Hr|arr ms es l l1 H IH Hr|arr ms es l l1 H IH Hr].
    - exists []. split_and!; auto; [|intros _ xs; change (after_arrival [] l0) with (arrive [] l0); by rewrite arrive_nil|discriminate].
      intros xs. by eexists.
    - destruct IH as (d & H1 & H3 & H4 & H5). exists d. split_and!; auto.
      + intros xs. destruct (H3 (x :: xs)) as [rest Hx]. exists rest. rewrite <- Hx.
        change (after_arrival (arr ++ [x]) l0) with (arrive (arr ++ [x]) l0). change (after_arrival arr l0) with (arrive arr l0). by rewrite !arrive_arrive, <- app_assoc.
      + intros Hs xs. change (set_chan (l_chan l ++ [x]) l) with (arrive [x] l). rewrite (arrive_arrive [x] xs l). rewrite <- (H4 Hs).
        change (after_arrival (arr ++ [x]) l0) with (arrive (arr ++ [x]) l0). change (after_arrival arr l0) with (arrive arr l0).
        by rewrite !arrive_arrive, <- app_assoc.
      + intros m Hm. destruct (H5 m Hm) as [(-> & p & rest & Hp & Hr)|?]; [left|by right]. split; [done|]. exists p.
        change (after_arrival (arr ++ [x]) l0) with (arrive (arr ++ [x]) l0). change (after_arrival arr l0) with (arrive arr l0) in Hp.
        rewrite <- arrive_arrive.
        assert (exists rest', mailbox (arrive [x] (arrive arr l0)) = (mailbox (arrive arr l0)) ++ rest') as [rest' ->].
        { destruct (visible_app (l_items l0 ++ l_chan l0 ++ arr) (dom (l_monitors l0)) [x]) as [y Hy].
          exists y. unfold mailbox. cbn. rewrite !app_assoc in *. exact Hy. }
        rewrite Hp, <- app_assoc. by eexists.
    - destruct IH as (d & H1 & _ & H4 & _). specialize (H4 eq_refl).
      apply (receive_strict S _ _ _ _ Hty) in Hr as (p & Hp & Hx). exists (d ++ [p]).
      assert (forall xs, mailbox (arrive xs (after_arrival arr l0)) = (d ++ [p]) ++ mailbox (arrive xs l1)) as Hb.
      { intros xs. by rewrite H4, Hx, <- app_assoc. }
      split_and!; auto.
      + rewrite !map_app, H1. cbn. by rewrite Hp.
      + intros xs. eexists. apply Hb.
      + intros y Hy. right. by exists m.
    - destruct IH as (d & H1 & H3 & H4 & H5). apply (receive_strict S _ _ _ _ Hty) in Hr as [_ Hx].
      exists d. split_and!; auto. intros Hs xs. by rewrite (H4 Hs), Hx.
    - destruct IH as (d & H1 & H3 & H4 & H5). exists d. split_and!; auto; [discriminate|].
      intros m [= <-]. left. split; [done|]. apply (receive_strict S _ _ _ _ Hty) in Hr as (p & rest & Hp & Hr).
      exists p, rest. split; [|done]. specialize (H4 eq_refl []). rewrite !arrive_nil in H4. by rewrite H4, Hp.
  Qed.
  (** A serving loop with a pending message goes on without further arrivals. *)
  Lemma loops_progress l0 arr ms qs l p rest : loops S T turn l0 arr ms qs LServing l -> mailbox l = p :: rest ->
    match read S T p with
    | Some m => exists l1, mailbox l1 = rest /\ loops S T turn l0 arr (ms ++ [m]) (qs ++ fst (turn m)) (snd (turn m)) l1
    | None => exists l1, loops S T turn l0 arr ms qs (LCrashed "Unsupported message type!") l1
    end.
  Proof.
    intros H Hp. destruct (receive S T true l) as [res l1] eqn:E. pose proof E as E0.
    apply (receive_strict S _ _ _ _ Hty) in E. destruct res as [m| |].
    - destruct E as (p' & Hr & Hx). specialize (Hx []). rewrite !arrive_nil, Hp in Hx. injection Hx as <- Hm. rewrite Hr.
      exists l1. split; [by rewrite <- Hm|]. eapply loops_turn; eauto.
    - destruct E as [E _]. congruence.
    - destruct E as (p' & rest' & Hx & Hr). rewrite Hp in Hx. injection Hx as <- <-. rewrite Hr.
      exists l1. eapply loops_type_panic; eauto.
  Qed.
  Lemma loops_arrivals xs : forall l0 arr ms qs s l, loops S T turn l0 arr ms qs s l ->
    loops S T turn l0 (arr ++ xs) ms qs s (after_arrival xs l).
  Proof.
    induction xs as [|x xs IH]; intros l0 arr ms qs s l H.
    - rewrite app_nil_r. change (after_arrival [] l) with (arrive [] l). by rewrite arrive_nil.
    - apply (loops_arrival _ _ _ _ _ _ _ _ _ x) in H. apply IH in H. rewrite <- app_assoc in H. cbn [app] in H.
      change (set_chan (l_chan l ++ [x]) l) with (arrive [x] l) in H. change (after_arrival xs (arrive [x] l)) with (arrive xs (arrive [x] l)) in H.
      rewrite arrive_arrive in H. exact H.
  Qed.
End loop.

(** ** C62 *)
Lemma run_turn_spec p sp m : fst (run_turn p sp m) = asks p sp m /\
  snd (run_turn p sp m) = if exit_of p m then LDone tt else LServing.
Proof.
  destruct m as [v|[e why|d k why|n k]]; cbn; auto; [|by destruct sp..].
  destruct (decide (e = p)) as [->|Hp]; cbn.
  - rewrite bool_decide_true by done. destruct sp as [e|]; [|done]. split; [|done]. destruct (bool_decide (p = e)); done.
  - rewrite (bool_decide_false (e = p)) by done. destruct sp as [x|]; cbn; [|by rewrite decide_False by congruence].
    destruct (decide (e = x)) as [->|Hx]; [by rewrite decide_True, bool_decide_true by done|].
    by rewrite decide_False, bool_decide_false by congruence.
Qed.
(** run, started with [p].  However messages arrive: it handles exactly the oldest pending messages in
    order (while it waits, all others are still pending); what it asks for is exactly the documented
    reaction to these messages, in order; and it answers exactly when it has handled an exit message
    from [p], that being the last message it handles.  It crashes on a message of another type. *)
Theorem C62_run :
  forall S T p sp l0 arrived handled requests s l, serde_typed S ->
    loops S T (run_turn p sp) l0 arrived handled requests s l ->
    (exists done rest, mailbox (after_arrival arrived l0) = done ++ rest /\ map (read S T) done = map Some handled /\
       match s with
       | LServing => mailbox l = rest
       | LDone _ => True
       | LCrashed _ => exists x rest', rest = x :: rest' /\ read S T x = None
       end) /\
    requests = concat (map (asks p sp) handled) /\
    match s with
    | LDone tt => exists before m, handled = before ++ [m] /\ exit_of p m = true /\ Forall (fun m => exit_of p m = false) before
    | _ => Forall (fun m => exit_of p m = false) handled
    end.
Proof.
  intros S T p sp l0 arr ms qs s l Hty H. split_and!.
  - pose proof (loops_order S T _ Hty _ _ _ _ _ _ H) as (d & H1 & H2 & H3 & H4). destruct (H2 []) as [rest Hr]. rewrite arrive_nil in Hr.
    exists d, rest. split_and!; auto. destruct s as [|[]|x]; [|done|].
    + specialize (H3 eq_refl []). rewrite !arrive_nil, Hr in H3. by apply app_inv_head in H3.
    + destruct (H4 x eq_refl) as [(_ & q & rest' & Hq & Hrd)|[m Hm]].
      * rewrite Hr in Hq. apply app_inv_head in Hq. eauto.
      * rewrite (proj2 (run_turn_spec p sp m)) in Hm. destruct (exit_of p m); discriminate.
  - induction H as [|arr ms es s l x H IH|arr ms es l m l1 H IH Hr|arr ms es l l1 H IH Hr|arr ms es l l1 H IH Hr]; auto.
    rewrite map_app, concat_app, IH, (proj1 (run_turn_spec p sp m)). cbn. by rewrite app_nil_r.
  - induction H as [|arr ms es s l x H IH|arr ms es l m l1 H IH Hr|arr ms es l l1 H IH Hr|arr ms es l l1 H IH Hr]; auto.
    rewrite (proj2 (run_turn_spec p sp m)). destruct (exit_of p m) eqn:E; [by exists ms, m|]. apply Forall_app; auto.
Qed.
Print Assumptions C62_run.

Lemma run_finishes S T p sp l0 arr : serde_typed S -> forall n ms qs l why, length (mailbox l) = n ->
  loops S T (run_turn p sp) l0 arr ms qs LServing l -> PSys (SExit p why) ∈ mailbox l ->
  exists ms' qs' s' l', loops S T (run_turn p sp) l0 arr ms' qs' s' l' /\ run_returns (answer_of s') = true /\
    (Forall (fun x => is_Some (read S T x)) (mailbox l) -> s' = LDone tt).
Proof.
  intros Hty n. induction n as [n IH] using lt_wf_ind. intros ms qs l why Hn H Hin.
  destruct (mailbox l) as [|x rest] eqn:E; [by apply elem_of_nil in Hin|].
  pose proof (loops_progress S T _ Hty _ _ _ _ _ _ _ H E) as Hp. destruct (read S T x) as [m|] eqn:Er.
  - destruct Hp as (l1 & Hl1 & H1). rewrite (proj2 (run_turn_spec p sp m)) in H1. destruct (exit_of p m) eqn:Ee.
    + eexists _, _, _, _. split; [exact H1|]. auto.
    + apply elem_of_cons in Hin as [<-|Hin].
      * cbn in Er. injection Er as <-. cbn in Ee. by rewrite bool_decide_true in Ee.
      * rewrite <- Hl1 in Hin. destruct (IH (length rest)) with (ms := ms ++ [m]) (qs := qs ++ fst (run_turn p sp m)) (l := l1) (why := why)
          as (ms' & qs' & s' & l' & G1 & G2 & G3); auto.
        { subst n. cbn. lia. }
        { by rewrite Hl1. }
        exists ms', qs', s', l'. split_and!; auto. intros Hf. apply G3. rewrite Hl1. by inversion Hf.
  - destruct Hp as (l1 & H1). eexists _, _, _, _. split; [exact H1|]. split; [done|]. intros Hf.
    inversion Hf as [|? ? [y Hy]]; subst. congruence.
Qed.
Lemma exit_pending p why xs l : ISystem (SExit p why) ∈ xs -> PSys (SExit p why) ∈ mailbox (after_arrival xs l).
Proof.
  intros H. apply elem_of_list_split in H as (a & b & ->). unfold mailbox, after_arrival. cbn.
  generalize (dom (l_monitors l)). rewrite app_assoc, app_assoc. generalize ((l_items l ++ l_chan l) ++ a). intros q.
  induction q as [|x q IH]; intros M; cbn; [by left|]. destruct x; cbn; try (apply elem_of_cons; right; apply IH); try apply IH;
    case_decide; try (apply elem_of_cons; right); apply IH.
Qed.
(** The process [i] that start returned is linked to the application process [me], which traps exits.
    When [i] ends - in any state a history leads to, whatever [run] has handled so far - the application
    process needs nothing but what has then arrived to make [run] return, and returns regularly if no
    pending message is of another type. *)
Theorem C62_returns_when_exited :
  forall S T w me i ri rm sp l0 arrived handled requests l, serde_typed S -> occurs S w -> me <> i ->
    w_regs w !! i = Some ri -> w_regs w !! me = Some rm -> r_trap rm = true -> linked w i me = true -> w_loc w !! me = Some l ->
    loops S T (run_turn (PLocal i) sp) l0 arrived handled requests LServing l ->
    exists w' new handled' requests' s' l', run (drop_process i) w = Done w' tt /\ w_regs w' !! i = None /\
      w_loc w' !! me = Some (after_arrival new l) /\
      loops S T (run_turn (PLocal i) sp) l0 (arrived ++ new) handled' requests' s' l' /\ run_returns (answer_of s') = true /\
      (Forall (fun x => is_Some (read S T x)) (mailbox (after_arrival new l)) -> s' = LDone tt).
Proof.
  intros S T w me i ri rm sp l0 arr ms qs l Hty Ho Hne Hi Hm Htr Hl Hloc H.
  destruct (C19_links_propagate S w i ri Ho Hi) as (w' & Hr & Hj).
  destruct (Hj me rm l Hne Hm Hloc) as (xs & Hx & Hc). rewrite Hl, Htr in Hc. destruct Hc as [_ Hc].
  assert (ISystem (SExit (PLocal i) (final_reason ri)) ∈ xs) as Hin.
  { assert (ISystem (SExit (PLocal i) (final_reason ri)) ∈ filter is_exit xs) as Hf by (rewrite Hc; by left).
    by apply elem_of_list_filter in Hf as [_ ?]. }
  pose proof (loops_arrivals S T _ xs _ _ _ _ _ _ H) as H'.
  destruct (run_finishes S T (PLocal i) sp l0 (arr ++ xs) Hty _ _ _ _ _ eq_refl H' (exit_pending _ _ _ _ Hin)) as (ms' & qs' & s' & l' & G1 & G2 & G3).
  exists w', xs, ms', qs', s', l'. split_and!; auto.
  destruct (drop_spec i w ri Hi) as (w2 & Hr2 & Hx2); [by apply (ProcInv.occurs_named S)|]. rewrite Hr in Hr2. injection Hr2 as <-.
  apply (ex_reg _ _ _ _ _ Hx2).
Qed.
Print Assumptions C62_returns_when_exited.

(** run returns at once if start fails. *)
Theorem C62_start_failed : forall why s, run_returns (run_answer (RErr why) s) = true.
Proof. done. Qed.
Print Assumptions C62_start_failed.
(** While start has succeeded and the loop goes on, run waits; whatever else happens, it returns. *)
Theorem C62_waits_while_serving : forall (start : result pid) s,
  run_returns (run_answer start s) = false <-> (exists p, start = ROk p) /\ s = LServing.
Proof.
  intros [p|why|why] [|[]|x]; cbn; split; try done; try (intros [[q Hq] Hs]; discriminate). intros _. eauto.
Qed.
Print Assumptions C62_waits_while_serving.


(** The termination signal: the handler process, linked to the trapping application process, exits and
    its exit message arrives. *)
Theorem C62_signal_arrives :
  forall S w me i ri rm l sig, occurs S w -> me <> i -> w_regs w !! i = Some ri -> w_regs w !! me = Some rm -> r_trap rm = true ->
    linked w i me = true -> w_loc w !! me = Some l ->
    exists w1 w' new why, run (signal_handler i sig) w = Done w1 tt /\ run (drop_process i) w1 = Done w' tt /\
      w_loc w' !! me = Some (after_arrival new l) /\ filter is_exit new = [ISystem (SExit (PLocal i) why)].
Proof.
  intros S w me i ri rm l sig Ho Hne Hi Hm Htr Hl Hloc. unfold signal_handler. generalize (RCustom (match sig with SigTerm => "sigterm" | CtrlC => "ctrl_c" end)). intros why.
  destruct (C33_exits_with_reason S w i ri why Ho Hi) as (w1 & w2 & H1 & H2 & Hx & Hl1 & Hl2 & _ & Hreg).
  assert (occurs S w1) as Ho1.
  { apply (occurs_run S w (CExit i (PLocal i) why)); [exact Ho|]. eapply happens_done. cbn [call_prog]. unfold ret_as.
    rewrite run_bind, H1. reflexivity. }
  assert (w_regs w1 !! i = Some (terminated why ri)) as Hi1.
  { pose proof (C18_exit_table i i why w ri Hi) as (w1' & Hr & _ & Ht). rewrite H1 in Hr. injection Hr as <-.
    rewrite bool_decide_true in Ht by reflexivity.
    assert (exit_table true (r_trap ri) why = Terminated) as Et by (by destruct why). rewrite Et in Ht. destruct Ht as [-> _]. apply lookup_insert. }
  destruct (C19_links_propagate S w1 i _ Ho1 Hi1) as (w' & Hr & Hj). rewrite H2 in Hr. injection Hr as <-.
  destruct (Hj me rm l) as (xs & Hx' & Hc); [done| by rewrite Hreg | by rewrite Hl1 |].
  unfold linked in *. rewrite Hl2, Hl, Htr in Hc. exists w1, w2, xs, why. tauto.
Qed.
Print Assumptions C62_signal_arrives.

(** test, started with [p]: it waits until the first exit message from [p] has been handled and then
    fails iff the reason is custom and not 'shutdown'. *)
Theorem C62_test :
  forall S T p l0 arrived handled requests s l, serde_typed S ->
    loops S T (test_turn p) l0 arrived handled requests s l ->
    match s with
    | LServing => test_verdict (test_answer (ROk p) s) = Waiting /\ Forall (fun m => exit_of p m = false) handled
    | LDone why => (exists before, handled = before ++ [MSystem (SExit p why)] /\ Forall (fun m => exit_of p m = false) before) /\
        (test_verdict (test_answer (ROk p) s) = Fails <-> exists text, why = RCustom text /\ text <> "shutdown"%string) /\
        (test_verdict (test_answer (ROk p) s) = Passes \/ test_verdict (test_answer (ROk p) s) = Fails)
    | LCrashed _ => Forall (fun m => exit_of p m = false) handled
    end.
Proof.
  intros S T p l0 arr ms qs s l Hty H.
  assert (match s with LDone why => exists before, ms = before ++ [MSystem (SExit p why)] /\ Forall (fun m => exit_of p m = false) before
                     | _ => Forall (fun m => exit_of p m = false) ms end) as Hc.
  { induction H as [|arr ms es s l x H IH|arr ms es l m l1 H IH Hr|arr ms es l l1 H IH Hr|arr ms es l l1 H IH Hr]; auto.
    destruct m as [v|[e why|d k why|n k]]; cbn; try (apply Forall_app; by auto).
    destruct (decide (e = p)) as [->|He]; cbn; [by exists ms|]. apply Forall_app; split; [done|]. repeat constructor. cbn. by apply bool_decide_eq_false. }
  destruct s as [|why|x]; [split; [done|exact Hc]| |exact Hc]. split; [exact Hc|]. cbn.
  destruct why as [| | |t]; try (split; [|by left]; split; [discriminate|]; by intros (? & ? & ?)).
  destruct (decide (t = "shutdown"%string)) as [->|Ht].
  - split; [|by left]. split; [discriminate|]. intros (x & [= <-] & Hx). congruence.
  - split; [|by right]. split; [|done]. intros _. by exists t.
Qed.
Print Assumptions C62_test.
Theorem C62_test_start_failed : forall why s, test_verdict (test_answer (RErr why) s) = Fails <-> exists text, why = RCustom text /\ text <> "shutdown"%string.
Proof.
  intros why s. cbn. destruct why as [| | |t]; try (split; [discriminate|]; by intros (? & ? & ?)).
  destruct (decide (t = "shutdown"%string)) as [->|Ht]; split; try done; [|by eauto]. intros (x & [= <-] & Hx). congruence.
Qed.
Print Assumptions C62_test_start_failed.

(** ** Violated: run may return while the process it waits for is alive. *)
Definition C62_statement : Prop :=
  forall S T w me i sp l arrived handled requests s l', serde_typed S -> seq_reachable S w -> w_loc w !! me = Some l ->
    loops S T (run_turn (PLocal i) sp) l arrived handled requests s l' -> arrived = [] ->
    run_returns (answer_of s) = true -> w_regs w !! i = None.
Lemma S0_typed : serde_typed S0.
Proof. intros T b v H. discriminate. Qed.
(** The process itself may send its starter an exit signal without exiting ... *)
Theorem C62_forged_exit_refuted : ~ C62_statement.
Proof.
  intros H.
  destruct (play_some S0 (fun w => match w_loc w !! 1%N with
       | Some l => receive S0 7 true l = (Found (MSystem (SExit (PLocal 2) (RCustom "x"))), new_plocal) | None => False end /\ bool_decide (w_regs w !! 2%N = None) = false)
    [CSpawn 0 false false; CSetFlags 1 true; CSpawn 1 true false; CExit 2 (PLocal 1) (RCustom "x")]) as (w & Hw & H1 & H2).
  { vm_compute. auto. }
  destruct (w_loc w !! 1%N) as [l|] eqn:E; [|done]. apply bool_decide_eq_false in H2. apply H2.
  eapply (H S0 7%N w 1%N 2%N None l [] _ _ _ _ S0_typed Hw E); [|reflexivity|].
  - eapply (loops_turn S0 7 (run_turn (PLocal 2) None)); [apply loops_init|exact H1].
  - cbn. by rewrite decide_True.
Qed.
Print Assumptions C62_forged_exit_refuted.
(** ... and any message of another type sent to the application process ends the wait. *)
Theorem C62_stray_message_refuted : ~ C62_statement.
Proof.
  intros H.
  destruct (play_some S0 (fun w => match w_loc w !! 1%N with
       | Some l => fst (receive S0 7 true l) = TypePanic | None => False end /\ bool_decide (w_regs w !! 2%N = None) = false)
    [CSpawn 0 false false; CSetFlags 1 true; CSpawn 1 true false; CSend (DsOne (DPid (PLocal 1))) (Val 3 0)]) as (w & Hw & H1 & H2).
  { vm_compute. auto. }
  destruct (w_loc w !! 1%N) as [l|] eqn:E; [|done]. apply bool_decide_eq_false in H2. apply H2.
  destruct (receive S0 7 true l) as [res l1] eqn:Er. cbn in H1. subst res.
  eapply (H S0 7%N w 1%N 2%N None l [] _ _ _ _ S0_typed Hw E); [|reflexivity|].
  - eapply (loops_type_panic S0 7 (run_turn (PLocal 2) None)); [apply loops_init|exact Er].
  - done.
Qed.
Print Assumptions C62_stray_message_refuted.
(** Violated: test is documented to panic unless the process exits with 'normal' or 'shutdown'. *)
Definition C62_test_statement : Prop := forall start s, test_verdict (test_answer start s) = Passes ->
  exists why, test_answer start s = Answered why /\ clean why.
Theorem C62_test_kill_refuted : ~ C62_test_statement.
Proof. intros H. destruct (H (ROk (PLocal 2)) (LDone RKill) eq_refl) as (why & [= <-] & [|]); discriminate. Qed.
Print Assumptions C62_test_kill_refuted.
Theorem C62_test_panic_refuted : ~ C62_test_statement.
Proof. intros H. by destruct (H (RPanic "assertion failed") LServing eq_refl) as (why & ? & _). Qed.
Print Assumptions C62_test_panic_refuted.

(** non-vacuity: process 1 runs an application whose supervisor is 2 and signal handler 3; a stranger's
    exit, the handler's, the timer's message and the supervisor's exit arrive. *)
Ltac step H := let H' := fresh in pose proof (loops_turn _ _ _ _ _ _ _ _ _ _ H eq_refl) as H'; clear H; rename H' into H; cbn in H.
Example C62_example : exists l,
  loops S0 7 (run_turn (PLocal 2) (Some (PLocal 3))) new_plocal
    [ISystem (SExit (PLocal 9) RNormal); ISystem (SExit (PLocal 3) (RCustom "sigterm")); IUserLocal (Val 7 0); ISystem (SExit (PLocal 2) RKill)]
    [MSystem (SExit (PLocal 9) RNormal); MSystem (SExit (PLocal 3) (RCustom "sigterm")); MUser (Val 7 0); MSystem (SExit (PLocal 2) RKill)]
    [QExit (PLocal 2) (RCustom "shutdown"); QShutdownTimer; QExit (PLocal 2) RKill] (LDone tt) l.
Proof.
  pose proof (loops_init S0 7 (run_turn (PLocal 2) (Some (PLocal 3))) new_plocal) as H.
  apply (loops_arrivals S0 7 _ [ISystem (SExit (PLocal 9) RNormal); ISystem (SExit (PLocal 3) (RCustom "sigterm")); IUserLocal (Val 7 0); ISystem (SExit (PLocal 2) RKill)]) in H.
  do 4 step H. eexists. exact H.
Qed.
(** non-vacuity of the hypotheses about the node: 1 traps exits, 2 is linked to it, 3 is its handler. *)
Example C62_node_example : exists w, seq_reachable S0 w /\ linked w 2 1 = true /\ linked w 3 1 = true /\
  (r_trap <$> w_regs w !! 1%N) = Some true /\ (r_trap <$> w_regs w !! 2%N) = Some false /\
  match run (let! _ := signal_handler 3 SigTerm in drop_process 3) w with
  | Done w' _ => (l_chan <$> w_loc w' !! 1%N) = Some [ISystem (SExit (PLocal 3) (RCustom "sigterm"))]
  | _ => False end.
Proof.
  apply (play_some S0 _ [CSpawn 0 false false; CSetFlags 1 true; CSpawn 1 true false; CSpawn 1 true false]). vm_compute. auto 7.
Qed.
