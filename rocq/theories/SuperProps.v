(** Restart policy, strategies, intensity, automatic shutdown, and the calls on single children
    (C37-C41, C44, C45).  The theorems hold for every sequence [answers] of outcomes of start functions. *)
From stdpp Require Import base list gmap numbers strings sets.
From Coq Require Import ZArith Lia Sorted.
From Verif Require Import Types Super SuperSpec SuperProofs SuperTerm SuperHandle SuperMoves.

(** ** Example supervisors *)
Definition spec_of (id : string) (k : restart) (sig : bool) : spec := Spec id true k None Worker sig.
Definition up (n : nat) : answer := Up (PLocal (N.of_nat n)).
Definition sup3 (st : strategy) (au : auto_shutdown) (mx : N) (a b c : spec) : sup :=
  match add_children (new_sup st au mx 5000000000) [a; b; c] with Some s => s | None => new_sup st au mx 5000000000 end.
Definition world_of (l : life) : sworld := match l with Running w | Ended w _ | Panicking w => w end.
Definition three (st : strategy) (au : auto_shutdown) (mx : N) (a b c : spec) : sworld := world_of (starts up (sup3 st au mx a b c)).
Definition abc (st : strategy) (mx : N) : sworld :=
  three st Never mx (spec_of "a" Permanent false) (spec_of "b" Transient false) (spec_of "c" Temporary false).
Definition kids (st : strategy) (mx : N) : list child := children (abc st mx).
Definition kid (sp : spec) (n : N) : child := Child sp (Some (PLocal n)) false.
Example abc_children st mx : children (abc st mx) = [kid (spec_of "a" Permanent false) 0; kid (spec_of "b" Transient false) 1; kid (spec_of "c" Temporary false) 2].
Proof. destruct st; reflexivity. Qed.
Lemma startable_b l : forallb (fun c => sp_start (c_spec c)) l = true -> Forall startable l.
Proof. induction l as [|c l IH]; intros H; constructor; cbn in H; apply andb_prop in H as [H1 H2]; [done|auto]. Qed.

Global Instance child_type_eq_dec : EqDecision child_type. Proof. solve_decision. Defined.

Lemma is_ended l r : match l with Ended _ r' => r' = r | _ => False end -> exists w', l = Ended w' r.
Proof. destruct l; try done. intros ->. eauto. Qed.
Lemma is_running l (P : sworld -> Prop) : match l with Running w => P w | _ => False end -> exists w', l = Running w' /\ P w'.
Proof. destruct l; try done. eauto. Qed.

Lemma not_running l w : match l with Running _ => False | _ => True end -> l <> Running w.
Proof. by destruct l. Qed.
Lemma not_ended l w r : match l with Ended _ _ => False | _ => True end -> l <> Ended w r.
Proof. by destruct l. Qed.

Section props.
Context (answers : nat -> answer).
Notation step := (step answers).

(** ** C37: restart policy *)
(** An exit message from anything but a child changes nothing. *)
Theorem C37_unknown w now p r : Forall (fun c => c_pid c <> Some p) (children w) -> step w (VExit now p r) = Running w.
Proof. intros H. unfold step. by rewrite exit_unknown. Qed.
(** A permanent child, or a transient one that ended abnormally, is restarted by the supervisor's
    strategy ([restarted], SuperSpec.v), unless there have been too many restarts: then the
    supervisor ends all its children and itself, with reason "shutdown". *)
Theorem C37_restarted w now p r pre c post :
  child_of w p pre c post -> to_be_restarted (sp_restart (c_spec c)) r ->
  Forall startable (children w) -> window_ok (v_sup w) now ->
  if decide (too_many (v_sup w) (s_restarts (v_sup w)) now)
  then exists w', step w (VExit now p r) = Ended w' (RCustom "shutdown") /\ v_log w' = v_log w ++ stops (rev (children w))
  else exists w' effects after failed, step w (VExit now p r) = Running w' /\ restarted answers (counted w now) pre c post effects after failed w'.
Proof.
  intros Hc Hr Hs Hw. pose proof (exit_again answers w now p r pre c post Hc Hr Hw) as H. unfold Super.step.
  destruct (handle answers (VExit now p r) w) as [w' [[e|x]|]]; [| |done].
  - destruct H as (H & -> & ->). rewrite decide_True by done. destruct (ends_eq (counted w now) give_up) as (w2 & E & El & _). exists w2. by rewrite E, El.
  - destruct H as (H & _ & es & l & f & H1 & _). rewrite decide_False by done. by exists w', es, l, f.
Qed.
(** A child that is not restarted is removed; nothing is started, and nothing stopped unless the
    supervisor shuts down because of it (C40). *)
Theorem C37_removed w now p r pre c post :
  child_of w p pre c post -> ~ to_be_restarted (sp_restart (c_spec c)) r ->
  exists w1, children w1 = pre ++ post /\ s_ids (v_sup w1) = s_ids (v_sup w) ∖ {[c_id c]} /\ v_log w1 = v_log w /\ v_tick w1 = v_tick w /\
    s_restarts (v_sup w1) = s_restarts (v_sup w) /\
    (step w (VExit now p r) = Running w1 \/ exists w', step w (VExit now p r) = Ended w' (RCustom "shutdown") /\ v_log w' = v_log w ++ stops (rev (pre ++ post))).
Proof.
  intros Hc Hr. exists (removed w pre c post). split_and!; try done. unfold Super.step. rewrite (exit_gone answers w now p r pre c post Hc Hr).
  destruct (match s_auto (v_sup w) with Never => _ | _ => _ end); [|by left]. right.
  destruct (ends_eq (removed w pre c post) give_up) as (w2 & E & El & _). exists w2. split; [exact E|exact El].
Qed.

(** ** C38: restart strategies *)
(** A successful or ignored start of each child of [l], in order. *)
Definition all_started (t : nat) (l : list child) (effects : list effect) (after : list child) : Prop :=
  length effects = length l /\ length after = length l /\
  forall i c, l !! i = Some c ->
    effects !! i = Some (Starts (c_id c) (answers (t + i))) /\
    ((exists p, answers (t + i) = Up p /\ after !! i = Some (running_as c p)) \/ (answers (t + i) = Down RIgnore /\ after !! i = Some (ignored c))).
Lemma attempts_all t l es l' : attempts answers t l es l' None -> all_started t l es l'.
Proof.
  remember None as f eqn:Hf. induction 1 as [|t c l p es l' f Ea _ IH|t c l es l' f Ea _ IH|]; [| | |done].
  - split_and!; try done.
  - destruct (IH Hf) as (H1 & H2 & H3). split_and!; [cbn; congruence|cbn; congruence|]. intros [|i] x Hx; cbn in Hx |- *.
    + injection Hx as <-. rewrite Nat.add_0_r, Ea. split; [done|]. left. eauto.
    + rewrite <- Nat.add_succ_comm. auto.
  - destruct (IH Hf) as (H1 & H2 & H3). split_and!; [cbn; congruence|cbn; congruence|]. intros [|i] x Hx; cbn in Hx |- *.
    + injection Hx as <-. rewrite Nat.add_0_r, Ea. split; [done|]. by right.
    + rewrite <- Nat.add_succ_comm. auto.
Qed.
(** One start of [l] failed (not: was ignored): those before it have been started, it is marked as
    restarting and keeps what was recorded, those after it have not been touched. *)
Definition some_started (t : nat) (l : list child) (effects : list effect) (after : list child) (id : string) : Prop :=
  exists l1 c l2 e effects1 after1, l = l1 ++ c :: l2 /\ all_started t l1 effects1 after1 /\ c_id c = id /\
    answers (t + length l1) = Down e /\ e <> RIgnore /\ effects = effects1 ++ [Starts id (Down e)] /\ after = after1 ++ retrying c :: l2.
Lemma attempts_some t l es l' id : attempts answers t l es l' (Some id) -> some_started t l es l' id.
Proof.
  remember (Some id) as f eqn:Hf. induction 1 as [|t c l p es l' f Ea _ IH|t c l es l' f Ea _ IH|t c l e Ea He]; [done| | |].
  - destruct (IH Hf) as (l1 & c1 & l2 & e & es1 & af1 & -> & (H1 & H2 & H3) & Hid & Ha & He & -> & ->).
    exists (c :: l1), c1, l2, e, (Starts (c_id c) (Up p) :: es1), (running_as c p :: af1). split_and!; try done.
    + split; [cbn; congruence|]. split; [cbn; congruence|]. intros [|i] x Hx; cbn in Hx |- *; [injection Hx as <-; rewrite Nat.add_0_r, Ea; split; [done|]; left; eauto|]. rewrite <- Nat.add_succ_comm. auto.
    + cbn [length]. by rewrite <- Nat.add_succ_comm.
  - destruct (IH Hf) as (l1 & c1 & l2 & e & es1 & af1 & -> & (H1 & H2 & H3) & Hid & Ha & He & -> & ->).
    exists (c :: l1), c1, l2, e, (Starts (c_id c) (Down RIgnore) :: es1), (ignored c :: af1). split_and!; try done.
    + split; [cbn; congruence|]. split; [cbn; congruence|]. intros [|i] x Hx; cbn in Hx |- *; [injection Hx as <-; rewrite Nat.add_0_r, Ea; split; [done|]; by right|]. rewrite <- Nat.add_succ_comm. auto.
    + cbn [length]. by rewrite <- Nat.add_succ_comm.
  - injection Hf as <-. exists [], c, l, e, [], []. cbn [length]. rewrite Nat.add_0_r. split_and!; done.
Qed.
(** Starting [l]: all, or up to the first failure. *)
Definition start_run (t : nat) (l : list child) (effects : list effect) (after : list child) (failed : option string) : Prop :=
  match failed with None => all_started t l effects after | Some id => some_started t l effects after id end.
Lemma attempts_run t l es l' f : attempts answers t l es l' f -> start_run t l es l' f.
Proof. destruct f; [apply attempts_some|apply attempts_all]. Qed.

(** What a restart of the child between [pre] and [post] does, for each strategy; for an exit and for
    a later attempt alike. *)
Theorem C38_one_for_one w pre c post es after failed w' : s_strategy (v_sup w) = OneForOne -> restarted answers w pre c post es after failed w' ->
  start_run (v_tick w) [c] es after failed /\ v_log w' = v_log w ++ es /\ children w' = pre ++ after ++ post.
Proof. intros Es [Ha Hl Hc _ _ _ _]. rewrite Es in *. cbn in *. split_and!; try done. by apply attempts_run. Qed.
Theorem C38_rest_for_one w pre c post es after failed w' : s_strategy (v_sup w) = RestForOne -> restarted answers w pre c post es after failed w' ->
  start_run (v_tick w) (c :: map stopped post) es after failed /\ v_log w' = v_log w ++ stops post ++ es /\ children w' = pre ++ after.
Proof. intros Es [Ha Hl Hc _ _ _ _]. rewrite Es in *. cbn in *. rewrite app_nil_r in Hc. split_and!; try done. by apply attempts_run. Qed.
Theorem C38_one_for_all w pre c post es after failed w' : s_strategy (v_sup w) = OneForAll -> restarted answers w pre c post es after failed w' ->
  start_run (v_tick w) (map stopped pre ++ c :: map stopped post) es after failed /\ v_log w' = v_log w ++ stops (pre ++ post) ++ es /\ children w' = after.
Proof. intros Es [Ha Hl Hc _ _ _ _]. rewrite Es in *. cbn in *. rewrite app_nil_r in Hc. split_and!; try done. by apply attempts_run. Qed.
(** Specifications and order are preserved; another attempt is made later exactly if one start failed. *)
Theorem C38_preserved w pre c post es after failed w' : restarted answers w pre c post es after failed w' ->
  map c_spec (children w') = map c_spec (pre ++ c :: post) /\ s_ids (v_sup w') = s_ids (v_sup w) /\ v_casts w' = v_casts w ++ option_list failed.
Proof. intros H. split; [by eapply restarted_specs|]. destruct H. done. Qed.
(** The later attempt. *)
Theorem C38_retry w now id pre c post : child_called w id pre c post -> c_restarting c = true -> Forall startable (children w) -> window_ok (v_sup w) now ->
  ~ too_many (v_sup w) (s_restarts (v_sup w)) now ->
  exists w' es after failed, step w (VTryAgain now id) = Running w' /\ restarted answers (counted w now) pre c post es after failed w'.
Proof.
  intros Hc Hr Hs Hw Ht. pose proof (retry_known answers w now id pre c post Hc Hw) as H. unfold retried in H. rewrite Hr in H. unfold Super.step.
  destruct (handle answers (VTryAgain now id) w) as [w' [[e|x]|]]; [|  |done].
  - by destruct H.
  - destruct H as (_ & _ & es & l & f & H & _). by exists w', es, l, f.
Qed.

(** ** C40: automatic shutdown *)
Theorem C40_never w now p r pre c post : s_auto (v_sup w) = Never -> child_of w p pre c post -> ~ to_be_restarted (sp_restart (c_spec c)) r ->
  exists w', step w (VExit now p r) = Running w' /\ children w' = pre ++ post.
Proof. intros Ha Hc Hr. exists (removed w pre c post). unfold Super.step. by rewrite (exit_gone answers w now p r pre c post Hc Hr), Ha. Qed.
Theorem C40_any_significant w now p r pre c post : s_auto (v_sup w) = AnySignificant -> child_of w p pre c post -> ~ to_be_restarted (sp_restart (c_spec c)) r ->
  if sp_significant (c_spec c)
  then exists w', step w (VExit now p r) = Ended w' (RCustom "shutdown") /\ v_log w' = v_log w ++ stops (rev (pre ++ post))
  else exists w', step w (VExit now p r) = Running w' /\ children w' = pre ++ post.
Proof.
  intros Ha Hc Hr. unfold Super.step. rewrite (exit_gone answers w now p r pre c post Hc Hr), Ha. destruct (sp_significant (c_spec c)).
  - destruct (ends_eq (removed w pre c post) give_up) as (w2 & E & El & _). exists w2. split; [exact E|exact El].
  - by exists (removed w pre c post).
Qed.
(** A restarted child never causes an automatic shutdown: C37_restarted does not depend on it.  What the
    code does with AllSignificant: it shuts down if another significant child has a process. *)
Theorem C40_all_significant_partial w now p r pre c post : s_auto (v_sup w) = AllSignificant -> child_of w p pre c post -> ~ to_be_restarted (sp_restart (c_spec c)) r ->
  if decide (sp_significant (c_spec c) = true /\ Exists (fun x => is_Some (c_pid x) /\ sp_significant (c_spec x) = true) (pre ++ post))
  then exists w', step w (VExit now p r) = Ended w' (RCustom "shutdown")
  else exists w', step w (VExit now p r) = Running w' /\ children w' = pre ++ post.
Proof.
  intros Ha Hc Hr. unfold Super.step. rewrite (exit_gone answers w now p r pre c post Hc Hr), Ha.
  assert (existsb (fun x => bool_decide (is_Some (c_pid x)) && sp_significant (c_spec x)) (pre ++ post) = true <-> Exists (fun x => is_Some (c_pid x) /\ sp_significant (c_spec x) = true) (pre ++ post)) as Hx.
  { rewrite existsb_exists, Exists_exists. setoid_rewrite andb_true_iff. setoid_rewrite bool_decide_eq_true. setoid_rewrite elem_of_list_In. done. }
  destruct (decide _) as [[H1 H2]|H].
  - rewrite H1. apply Hx in H2. rewrite H2. cbn [andb]. destruct (ends_eq (removed w pre c post) give_up) as (w2 & E & El & _). exists w2. exact E.
  - exists (removed w pre c post). split; [|done]. destruct (sp_significant (c_spec c)); [|done]. cbn [andb]. destruct (existsb _ _); [|done]. exfalso. apply H. split; [done|by apply Hx].
Qed.

(** ** C44: single children *)
Theorem C44_terminate w id pre c post : child_called w id pre c post ->
  exists w', handle answers (VTerminate id) w = (w', Some (inr (RpTerminate None))) /\
    children w' = pre ++ stopped c :: post /\ v_log w' = v_log w ++ stops [c] /\ s_ids (v_sup w') = s_ids (v_sup w) /\ v_tick w' = v_tick w /\ v_casts w' = v_casts w.
Proof. intros H. eexists. split; [by apply terminate_known|]. done. Qed.
Theorem C44_restart w id pre c post : child_called w id pre c post -> Forall startable (children w) ->
  (c_restarting c = true -> handle answers (VRestart id) w = (w, Some (inr (RpRestart (inl ERestarting))))) /\
  (c_restarting c = false -> is_Some (c_pid c) -> handle answers (VRestart id) w = (w, Some (inr (RpRestart (inl ERunning))))) /\
  (c_restarting c = false -> c_pid c = None -> exists w' x,
     handle answers (VRestart id) w = (w', Some (inr (RpRestart x))) /\ v_log w' = v_log w ++ [Starts id (answers (v_tick w))] /\ s_ids (v_sup w') = s_ids (v_sup w) /\ v_casts w' = v_casts w /\
     match answers (v_tick w) with
     | Up p => x = inr (Some p) /\ children w' = pre ++ running_as c p :: post
     | Down RIgnore => x = inr None /\ children w' = pre ++ c :: post
     | Down r => x = inl (EStartError r) /\ children w' = pre ++ c :: post
     end).
Proof.
  intros Hc Hs. rewrite (restart_known answers w id pre c post Hc).
  assert (startable c) as Hst by (rewrite (cc_list _ _ _ _ _ Hc) in Hs; apply Forall_app in Hs as [_ Hs]; by inversion Hs).
  split_and!.
  - by intros ->.
  - intros -> H. by rewrite decide_True.
  - intros -> H. rewrite decide_False by (rewrite H; by intros [? ?]). rewrite decide_True by done. eexists _, _. split; [reflexivity|]. split_and!; try done.
    destruct (answers (v_tick w)) as [p|[]]; done.
Qed.
Theorem C44_delete w id pre c post : child_called w id pre c post ->
  (c_restarting c = true -> handle answers (VDelete id) w = (w, Some (inr (RpDelete (Some ERestarting))))) /\
  (c_restarting c = false -> is_Some (c_pid c) -> handle answers (VDelete id) w = (w, Some (inr (RpDelete (Some ERunning))))) /\
  (c_restarting c = false -> c_pid c = None -> exists w',
     handle answers (VDelete id) w = (w', Some (inr (RpDelete None))) /\ children w' = pre ++ post /\ s_ids (v_sup w') = s_ids (v_sup w) ∖ {[id]} /\
     v_log w' = v_log w /\ v_tick w' = v_tick w /\ v_casts w' = v_casts w).
Proof.
  intros Hc. rewrite (delete_known answers w id pre c post Hc). split_and!.
  - by intros ->.
  - intros -> H. by rewrite decide_True.
  - intros -> H. rewrite decide_False by (rewrite H; by intros [? ?]). exists (removed w pre c post). split_and!; try done. cbn. by rewrite (cc_id _ _ _ _ _ Hc).
Qed.
Theorem C44_not_found w id : Forall (fun c => c_id c <> id) (children w) ->
  handle answers (VTerminate id) w = (w, Some (inr (RpTerminate (Some ENotFound)))) /\
  handle answers (VRestart id) w = (w, Some (inr (RpRestart (inl ENotFound)))) /\
  handle answers (VDelete id) w = (w, Some (inr (RpDelete (Some ENotFound)))).
Proof. intros H. by rewrite terminate_unknown, restart_unknown, delete_unknown. Qed.
(** A child that was running when it was terminated stays as it is under exit messages of other processes, the
    delayed attempts for it, and which_children/count_children: only restart_child, the restart of another child under
    RestForOne/OneForAll, or the calls on it change it. *)
Theorem C44_stays_terminated w id pre c post p now : child_called w id pre c post -> c_pid c = Some p -> window_ok (v_sup w) now ->
  exists w1, step w (VTerminate id) = Running w1 /\
    (step w1 (VTryAgain now id) = Running (counted w1 now) \/ exists w2, step w1 (VTryAgain now id) = Ended w2 (RCustom "shutdown") /\ exists l, v_log w2 = v_log w1 ++ l /\ Forall (fun e => match e with Starts _ _ => False | _ => True end) l).
Proof.
  intros Hc Hp Hw. unfold Super.step. rewrite (terminate_known answers w id pre c post Hc). eexists. split; [reflexivity|]. set (w1 := mk _ _ _ _ _).
  assert (child_called w1 id pre (stopped c) post) as Hc1.
  { destruct Hc as [E Ei Hf]. split; [done| |done]. unfold stopped. by destruct (c_pid c). }
  pose proof (retry_known answers w1 now id pre (stopped c) post Hc1 Hw) as H. unfold retried in H.
  assert (c_restarting (stopped c) = false) as Hr by (unfold stopped; by rewrite Hp). rewrite Hr in H.
  assert (handle answers (VTryAgain now id) w1 = (counted w1 now, Some (if decide (too_many (v_sup w1) (s_restarts (v_sup w1)) now) then inl give_up else inr RpNone))) as E.
  { unfold handle. unfold sbind at 1, sget. rewrite (find_id_here _ _ _ _ _ Hc1). unfold try_again_restart. unfold sbind. rewrite (add_restart_ok now w1) by exact Hw. fold (counted w1 now).
    rewrite bool_decide_decide. destruct (decide _); [reflexivity|]. rewrite (nth_child_at _ _ (stopped c)) by (apply (mid pre)). rewrite Hr. reflexivity. }
  rewrite E. destruct (decide _); [|by left]. right. destruct (ends_eq (counted w1 now) give_up) as (w2 & E2 & El & _). exists w2. split; [exact E2|].
  exists (stops (rev (children w1))). split; [exact El|]. apply Forall_forall. intros e He. apply elem_of_list_omap in He as (x & _ & Hx). destruct (c_pid x); [|done]. by injection Hx as <-.
Qed.

(** ** C45: which_children and count_children *)
Definition num (P : child -> bool) (l : list child) : nat := length (filter (fun c => P c = true) l).
Lemma num_cons P c l : num P (c :: l) = (if P c then S (num P l) else num P l).
Proof. unfold num. destruct (P c) eqn:E; [rewrite filter_cons_True by done; done|]. rewrite filter_cons_False; [done|congruence]. Qed.
Lemma count_spec l k : fold_left (fun k c =>
      Counts (S (k_specs k))
             (if bool_decide (is_Some (c_pid c)) then S (k_active k) else k_active k)
             (match sp_type (c_spec c) with SupervisorChild => S (k_supervisors k) | Worker => k_supervisors k end)
             (match sp_type (c_spec c) with SupervisorChild => k_workers k | Worker => S (k_workers k) end)) l k =
  Counts (k_specs k + length l) (k_active k + num (fun c => bool_decide (is_Some (c_pid c))) l)
         (k_supervisors k + num (fun c => match sp_type (c_spec c) with SupervisorChild => true | _ => false end) l)
         (k_workers k + num (fun c => match sp_type (c_spec c) with Worker => true | _ => false end) l).
Proof.
  revert k. induction l as [|c l IH]; intros [a b d e]; [cbn; f_equal; unfold num; cbn; lia|]. cbn [fold_left]. rewrite IH, !num_cons. cbn. destruct (bool_decide _), (sp_type (c_spec c)); f_equal; lia.
Qed.
Theorem C45_which w : exists l, handle answers VWhich w = (w, Some (inr (RpWhich l))) /\ length l = length (children w) /\
  forall i c, children w !! i = Some c -> l !! i = Some (Info (sp_id (c_spec c)) (c_pid c) (sp_type (c_spec c)) (c_restarting c)).
Proof.
  exists (which_children (v_sup w)). split; [done|]. unfold which_children. split; [by rewrite map_length|]. intros i c H. change (s_children (v_sup w)) with (children w). by rewrite list_lookup_fmap, H.
Qed.
Theorem C45_count w : exists k l, handle answers VCount w = (w, Some (inr (RpCount k))) /\ handle answers VWhich w = (w, Some (inr (RpWhich l))) /\
  k_specs k = length l /\ k_specs k = k_workers k + k_supervisors k /\ k_active k <= k_specs k /\
  k_active k = length (filter (fun i => is_Some (i_child i)) l) /\
  k_supervisors k = length (filter (fun i => i_type i = SupervisorChild) l) /\
  k_workers k = length (filter (fun i => i_type i = Worker) l).
Proof.
  exists (count_children (v_sup w)), (which_children (v_sup w)). split; [done|]. split; [done|].
  unfold count_children, which_children. rewrite count_spec. cbn [k_specs k_active k_supervisors k_workers]. rewrite map_length. cbn [Nat.add].
  assert (forall (P : child_info -> Prop) (HP : forall x, Decision (P x)) (Q : child -> bool),
            (forall c, Q c = true <-> P (Info (c_id c) (c_pid c) (sp_type (c_spec c)) (c_restarting c))) ->
            forall l, num Q l = length (filter P (map (fun c => Info (c_id c) (c_pid c) (sp_type (c_spec c)) (c_restarting c)) l))) as Hn.
  { intros P HP Q HQ l. induction l as [|c l IH]; [done|]. rewrite num_cons. cbn [map]. rewrite filter_cons. destruct (decide _) as [H|H].
    - apply HQ in H. rewrite H. cbn. by rewrite IH.
    - destruct (Q c) eqn:E; [by apply HQ in E|]. done. }
  split_and!; [done| | |apply Hn|apply Hn|apply Hn].
  - induction (s_children (v_sup w)) as [|c l IH]; [done|]. rewrite !num_cons. cbn [length]. destruct (sp_type (c_spec c)); lia.
  - induction (s_children (v_sup w)) as [|c l IH]; [done|]. rewrite !num_cons. cbn [length]. destruct (bool_decide _); lia.
  - intros c. apply bool_decide_eq_true.
  - intros c. cbn. by destruct (sp_type (c_spec c)).
  - intros c. cbn. by destruct (sp_type (c_spec c)).
Qed.
End props.

(** ** The hypotheses are met: a supervisor of three children a (permanent), b (transient), c (temporary) *)
Example abc_child_of : child_of (abc RestForOne 3) (PLocal 1) [kid (spec_of "a" Permanent false) 0] (kid (spec_of "b" Transient false) 1) [kid (spec_of "c" Temporary false) 2].
Proof. split; [reflexivity|done|]. repeat constructor. done. Qed.
Example abc_called : child_called (abc RestForOne 3) "b" [kid (spec_of "a" Permanent false) 0] (kid (spec_of "b" Transient false) 1) [kid (spec_of "c" Temporary false) 2].
Proof. split; [reflexivity|done|]. repeat constructor. done. Qed.
Example abc_startable st mx : Forall startable (children (abc st mx)).
Proof. apply startable_b. destruct st; reflexivity. Qed.
Example abc_window st mx : window_ok (v_sup (abc st mx)) 100.
Proof. unfold window_ok. destruct st; vm_compute; discriminate. Qed.
Example C37_restarted_ex : exists w' es af f, step up (abc RestForOne 3) (VExit 100 (PLocal 1) RKill) = Running w' /\
  restarted up (counted (abc RestForOne 3) 100) [kid (spec_of "a" Permanent false) 0] (kid (spec_of "b" Transient false) 1) [kid (spec_of "c" Temporary false) 2] es af f w'.
Proof.
  assert (to_be_restarted Transient RKill) as Hr by (split; discriminate).
  pose proof (C37_restarted up (abc RestForOne 3) 100 (PLocal 1) RKill _ _ _ abc_child_of Hr (abc_startable RestForOne 3) (abc_window RestForOne 3)) as H.
  destruct (decide _) as [Hd|Hd]; [|exact H]. exfalso. revert Hd. vm_compute. discriminate.
Qed.
(** ... b and c are stopped and started, a is left alone. *)
Example C38_rest_for_one_ex : let w' := world_of (step up (abc RestForOne 3) (VExit 100 (PLocal 1) RKill)) in
  v_log w' = v_log (abc RestForOne 3) ++ [Stops (PLocal 2) (Within 5000000000); Starts "b" (Up (PLocal 3)); Starts "c" (Up (PLocal 4))] /\
  children w' = [kid (spec_of "a" Permanent false) 0; kid (spec_of "b" Transient false) 3; kid (spec_of "c" Temporary false) 4].
Proof. split; reflexivity. Qed.
(** With at most 0 restarts the supervisor gives up. *)
Example C37_gives_up_ex : exists w', step up (abc OneForOne 0) (VExit 100 (PLocal 0) RNormal) = Ended w' (RCustom "shutdown").
Proof. apply is_ended. vm_compute. reflexivity. Qed.
Example C37_removed_ex : exists w', step up (abc OneForOne 3) (VExit 100 (PLocal 1) RNormal) = Running w' /\ ids_of (children w') = ["a"; "c"].
Proof. apply is_running. vm_compute. reflexivity. Qed.
Example C38_one_for_all_ex : let w' := world_of (step up (abc OneForAll 3) (VExit 100 (PLocal 1) RKill)) in
  v_log w' = v_log (abc OneForAll 3) ++ [Stops (PLocal 0) (Within 5000000000); Stops (PLocal 2) (Within 5000000000);
                                           Starts "a" (Up (PLocal 3)); Starts "b" (Up (PLocal 4)); Starts "c" (Up (PLocal 5))].
Proof. reflexivity. Qed.
(** Answers whose fourth start fails. *)
Definition fail3 (n : nat) : answer := match n with 3 => Down (RCustom "x") | _ => up n end.
Definition failed_once (st : strategy) (mx : N) : sworld := world_of (step fail3 (abc st mx) (VExit 100 (PLocal 1) RKill)).
Example C38_retry_ex : child_called (failed_once OneForOne 3) "b" [kid (spec_of "a" Permanent false) 0] (Child (spec_of "b" Transient false) (Some (PLocal 1)) true) [kid (spec_of "c" Temporary false) 2] /\
  v_casts (failed_once OneForOne 3) = ["b"] /\ ~ too_many (v_sup (failed_once OneForOne 3)) (s_restarts (v_sup (failed_once OneForOne 3))) 100.
Proof. split; [split; [reflexivity|done|repeat constructor; done]|]. split; [reflexivity|]. vm_compute. done. Qed.
Definition sig (au : auto_shutdown) : sworld :=
  three OneForOne au 3 (spec_of "a" Transient true) (spec_of "b" Transient true) (spec_of "c" Temporary false).
Example C40_any_ex : s_auto (v_sup (sig AnySignificant)) = AnySignificant /\
  child_of (sig AnySignificant) (PLocal 0) [] (kid (spec_of "a" Transient true) 0) [kid (spec_of "b" Transient true) 1; kid (spec_of "c" Temporary false) 2] /\
  ~ to_be_restarted Transient RNormal.
Proof. split; [done|]. split; [split; [reflexivity|done|done]|]. intros [H _]. done. Qed.

(** ** AllSignificant, as documented *)
Definition C40_all_significant_statement : Prop := forall answers w now p r pre c post,
  s_auto (v_sup w) = AllSignificant -> child_of w p pre c post -> ~ to_be_restarted (sp_restart (c_spec c)) r -> sp_significant (c_spec c) = true ->
  (Forall (fun x => sp_significant (c_spec x) = false) (pre ++ post) -> exists w', step answers w (VExit now p r) = Ended w' (RCustom "shutdown")) /\
  (Exists (fun x => is_Some (c_pid x) /\ sp_significant (c_spec x) = true) (pre ++ post) -> exists w', step answers w (VExit now p r) = Running w').
(** The check is inverted: the first significant child to end shuts the supervisor down, ... *)
Theorem C40_all_significant_refuted : ~ C40_all_significant_statement.
Proof.
  intros H. destruct (H up (sig AllSignificant) 100%Z (PLocal 0) RNormal [] (kid (spec_of "a" Transient true) 0) [kid (spec_of "b" Transient true) 1; kid (spec_of "c" Temporary false) 2]) as [_ H1]; try done.
  - by intros [H1 _].
  - destruct H1 as [w' H1]; [|revert H1; apply not_running; vm_compute; exact I]. apply Exists_exists. exists (kid (spec_of "b" Transient true) 1). split; [left|]. split; [by eexists|done].
Qed.
(** ... and the last one does not. *)
Definition last_sig : sworld := three OneForOne AllSignificant 3 (spec_of "a" Transient true) (spec_of "b" Transient false) (spec_of "c" Temporary false).
Theorem C40_last_significant_refuted : ~ C40_all_significant_statement.
Proof.
  intros H. destruct (H up last_sig 100%Z (PLocal 0) RNormal [] (kid (spec_of "a" Transient true) 0) [kid (spec_of "b" Transient false) 1; kid (spec_of "c" Temporary false) 2]) as [H1 _]; try done.
  - by intros [H1 _].
  - destruct H1 as [w' H1]; [|revert H1; apply not_ended; vm_compute; exact I]. repeat constructor.
Qed.

(** ** A terminated child is not running until it is restarted *)
(** ... in particular a delayed attempt does not start it. *)
Definition C44_not_running_statement : Prop := forall answers w id now w1 w2,
  step answers w (VTerminate id) = Running w1 -> step answers w1 (VTryAgain now id) = Running w2 -> exists l, v_log w2 = v_log w1 ++ l /\ Forall (fun e => started_id e <> Some id) l.
(** Restart of b (RestForOne) whose first attempt fails after it was stopped: terminate_child leaves the attempt in place. *)
Definition fail4 (n : nat) : answer := match n with 4 => Down (RCustom "x") | _ => up n end.
Definition failed_next : sworld := world_of (step fail4 (abc RestForOne 3) (VExit 100 (PLocal 1) RKill)).
Example failed_next_ex : v_casts failed_next = ["c"] /\ children failed_next =
  [kid (spec_of "a" Permanent false) 0; kid (spec_of "b" Transient false) 3; Child (spec_of "c" Temporary false) None true].
Proof. split; reflexivity. Qed.
Theorem C44_not_running_refuted : ~ C44_not_running_statement.
Proof.
  intros H.
  destruct (is_running (step fail4 failed_next (VTerminate "c")) (fun w1 => v_log w1 = v_log failed_next /\
     match step fail4 w1 (VTryAgain 200 "c") with Running w2 => v_log w2 = v_log failed_next ++ [Starts "c" (Up (PLocal 5))] | _ => False end)) as (w1 & E1 & L1 & H2).
  { vm_compute. auto. }
  apply is_running in H2 as (w2 & E2 & L2). destruct (H fail4 failed_next "c" 200%Z w1 w2 E1 E2) as (l & Hl & Hf).
  rewrite L2, L1 in Hl. apply app_inv_head in Hl as <-. inversion Hf as [|? ? H1 _]. by apply H1.
Qed.
Example C44_ex : child_called (abc OneForOne 3) "b" [kid (spec_of "a" Permanent false) 0] (kid (spec_of "b" Transient false) 1) [kid (spec_of "c" Temporary false) 2] /\
  exists w', step up (abc OneForOne 3) (VTerminate "b") = Running w' /\
    children w' = [kid (spec_of "a" Permanent false) 0; Child (spec_of "b" Transient false) None false; kid (spec_of "c" Temporary false) 2].
Proof. split; [split; [reflexivity|done|repeat constructor; done]|]. apply is_running. vm_compute. reflexivity. Qed.

(** ** Active = running *)
(** Every process reported as a child has not ended: no exit message from it has been handled. *)
Lemma fail3_up i q : fail3 i = Up q -> q = PLocal (N.of_nat i).
Proof. unfold fail3, up. intros H. destruct i as [|[|[|[|i]]]]; congruence. Qed.
Definition C45_active_statement : Prop := forall answers s es w c p,
  (forall i j q, answers i = Up q -> answers j = Up q -> i = j) ->
  plays answers (starts answers s) es = Running w -> c ∈ children w -> c_pid c = Some p -> Forall (fun e => match e with VExit _ q _ => q <> p | _ => True end) es.
Theorem C45_active_refuted : ~ C45_active_statement.
Proof.
  intros H. set (s := sup3 OneForOne Never 3 (spec_of "a" Permanent false) (spec_of "b" Transient false) (spec_of "c" Temporary false)).
  destruct (is_running (plays fail3 (starts fail3 s) [VExit 100 (PLocal 1) RKill]) (fun w => children w =
     [kid (spec_of "a" Permanent false) 0; Child (spec_of "b" Transient false) (Some (PLocal 1)) true; kid (spec_of "c" Temporary false) 2])) as (w & E & Hc).
  { vm_compute. reflexivity. }
  assert (Forall (fun e => match e with VExit _ q _ => q <> PLocal 1 | _ => True end) [VExit 100 (PLocal 1) RKill]) as H1.
  { apply (H fail3 s _ w (Child (spec_of "b" Transient false) (Some (PLocal 1)) true) (PLocal 1)); [|exact E| |reflexivity].
    - intros i j q Hi Hj. apply fail3_up in Hi, Hj. rewrite Hi in Hj. injection Hj as Hj. by apply Nat2N.inj.
    - rewrite Hc. right. left. }
  exact (Forall_inv H1 eq_refl).
Qed.
Print Assumptions C37_unknown.
Print Assumptions C37_restarted.
Print Assumptions C37_removed.
Print Assumptions C38_one_for_one.
Print Assumptions C38_rest_for_one.
Print Assumptions C38_one_for_all.
Print Assumptions C38_preserved.
Print Assumptions C38_retry.
Print Assumptions C40_never.
Print Assumptions C40_any_significant.
Print Assumptions C40_all_significant_partial.
Print Assumptions C40_all_significant_refuted.
Print Assumptions C40_last_significant_refuted.
Print Assumptions C44_terminate.
Print Assumptions C44_restart.
Print Assumptions C44_delete.
Print Assumptions C44_not_found.
Print Assumptions C44_stays_terminated.
Print Assumptions C44_not_running_refuted.
Print Assumptions C45_which.
Print Assumptions C45_count.
Print Assumptions C45_active_refuted.
