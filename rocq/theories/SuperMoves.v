(** One step of a supervisor, by cases; invariants of its life. *)
From stdpp Require Import base list gmap numbers strings sets.
From Coq Require Import ZArith Lia.
From Verif Require Import Types Super SuperSpec SuperProofs SuperTerm SuperHandle.

(** The message asks for the restart of the child between [pre] and [post] at [now]. *)
Inductive demands (w : sworld) (pre : list child) (c : child) (post : list child) : event -> Z -> Prop :=
| demands_exit now p r : child_of w p pre c post -> to_be_restarted (sp_restart (c_spec c)) r -> demands w pre c post (VExit now p r) now
| demands_retry now id : child_called w id pre c post -> demands w pre c post (VTryAgain now id) now
| demands_retry_pid now p : child_of w p pre c post -> demands w pre c post (VTryAgainPid now p) now.
Lemma demands_list w pre c post e now : demands w pre c post e now -> children w = pre ++ c :: post.
Proof. intros [? ? ? H _|? ? H|? ? H]; apply H. Qed.

Section moves.
Context (answers : nat -> answer).
Inductive moved (w : sworld) : event -> sworld -> Prop :=
| mv_same e : (forall pre c post now, ~ demands w pre c post e now) -> moved w e w
| mv_counted e now pre c post : demands w pre c post e now -> moved w e (counted w now)
| mv_restarted e now pre c post es l f w' : demands w pre c post e now -> match e with VExit _ p _ => c_pid c = Some p | _ => c_restarting c = true end -> ~ too_many (v_sup w) (s_restarts (v_sup w)) now ->
    restarted answers (counted w now) pre c post es l f w' -> s_restarts (v_sup w') = s_restarts (v_sup (counted w now)) -> moved w e w'
| mv_gone now p r pre c post : child_of w p pre c post -> ~ to_be_restarted (sp_restart (c_spec c)) r -> moved w (VExit now p r) (removed w pre c post)
| mv_delete id pre c post : child_called w id pre c post -> c_restarting c = false -> c_pid c = None -> moved w (VDelete id) (removed w pre c post)
| mv_terminate id pre c post : child_called w id pre c post ->
    moved w (VTerminate id) (mk (v_sup w) (pre ++ stopped c :: post) (v_tick w) (v_casts w) (v_log w ++ stops [c]))
| mv_restart id pre c post : child_called w id pre c post -> c_restarting c = false -> c_pid c = None -> startable c ->
    moved w (VRestart id) (mk (v_sup w) (pre ++ match answers (v_tick w) with Up p => running_as c p | Down _ => c end :: post) (S (v_tick w)) (v_casts w) (v_log w ++ [Starts id (answers (v_tick w))]))
| mv_start sp : sp_id sp ∉ s_ids (v_sup w) -> sp_start sp = true ->
    moved w (VStart sp)
      (mk (with_ids (fun i => {[sp_id sp]} ∪ i) (v_sup w))
          (children w ++ match answers (v_tick w) with
                         | Up p => [Child sp (Some p) false]
                         | Down RIgnore => if decide (sp_restart sp = Temporary) then [] else [Child sp None false]
                         | Down _ => [Child sp None false]
                         end)
          (S (v_tick w)) (v_casts w) (v_log w ++ [Starts (sp_id sp) (answers (v_tick w))])).

Lemma child_of_unique w p pre c post pre' c' post' : child_of w p pre c post -> child_of w p pre' c' post' -> pre = pre' /\ c = c' /\ post = post'.
Proof.
  intros H H'. pose proof (find_child_here _ _ _ _ _ H) as F. rewrite (find_child_here _ _ _ _ _ H') in F. injection F as F.
  destruct H as [E _ _], H' as [E' _ _]. rewrite E in E'. apply app_inj_1 in E' as [-> E']; [|done]. injection E' as -> ->. done.
Qed.
Lemma child_called_unique w id pre c post pre' c' post' : child_called w id pre c post -> child_called w id pre' c' post' -> pre = pre' /\ c = c' /\ post = post'.
Proof.
  intros H H'. pose proof (find_id_here _ _ _ _ _ H) as F. rewrite (find_id_here _ _ _ _ _ H') in F. injection F as F.
  destruct H as [E _ _], H' as [E' _ _]. rewrite E in E'. apply app_inj_1 in E' as [-> E']; [|done]. injection E' as -> ->. done.
Qed.
Lemma no_child_of_not w p pre c post : no_child_of w p -> ~ child_of w p pre c post.
Proof. intros H [E Hp _]. unfold no_child_of in H. rewrite E in H. apply Forall_app in H as [_ H]. by inversion H. Qed.
Lemma no_child_called_not w p pre c post : no_child_called w p -> ~ child_called w p pre c post.
Proof. intros H [E Hp _]. unfold no_child_called in H. rewrite E in H. apply Forall_app in H as [_ H]. by inversion H. Qed.

Lemma retried_moved w e now pre c post w' x : demands w pre c post e now -> retried answers w now pre c post (w', Some x) -> moved w e w'.
Proof.
  intros Hd H. destruct x as [r|x]; cbn in H.
  - destruct H as (_ & -> & _). by eapply mv_counted.
  - destruct H as (Ht & _ & H). destruct (c_restarting c) eqn:Ec; [|subst; by eapply mv_counted]. destruct H as (es & l & f & Hr & Hs). eapply mv_restarted; try done. destruct Hd; try done. by destruct H.
Qed.
Lemma handle_moved w e w' x : handle answers e w = (w', Some x) -> moved w e w'.
Proof.
  intros H. destruct e as [now p r|now id|now p|r|sp|id|id|id| |].
  - destruct (find_child_cases w p) as [Hn|(pre & c & post & Hc)].
    + rewrite exit_unknown in H by done. injection H as <- _. apply mv_same. intros pre c post n Hd. inversion Hd. by eapply no_child_of_not.
    + destruct (decide (to_be_restarted (sp_restart (c_spec c)) r)) as [Hr|Hr].
      * destruct (decide (window_ok (v_sup w) now)) as [Hw|Hw]; [|by erewrite exit_bad in H].
        pose proof (exit_again answers w now p r pre c post Hc Hr Hw) as Ha. rewrite H in Ha. assert (demands w pre c post (VExit now p r) now) as Hd by by constructor.
        destruct x as [e|x]; [destruct Ha as (_ & -> & _); by eapply mv_counted|]. destruct Ha as (? & _ & es & l & f & ? & ?). eapply mv_restarted; try done. by destruct Hc.
      * erewrite exit_gone in H by done. injection H as <- _. by apply mv_gone.
  - destruct (find_id_cases w id) as [Hn|(pre & c & post & Hc)].
    + rewrite retry_unknown in H by done. injection H as <- _. apply mv_same. intros pre c post n Hd. inversion Hd. by eapply no_child_called_not.
    + destruct (decide (window_ok (v_sup w) now)) as [Hw|Hw]; [|by erewrite retry_bad in H]. pose proof (retry_known answers w now id pre c post Hc Hw) as Ha. rewrite H in Ha.
      eapply retried_moved; [|exact Ha]. by constructor.
  - destruct (find_child_cases w p) as [Hn|(pre & c & post & Hc)].
    + rewrite retrypid_unknown in H by done. injection H as <- _. apply mv_same. intros pre c post n Hd. inversion Hd. by eapply no_child_of_not.
    + destruct (decide (window_ok (v_sup w) now)) as [Hw|Hw]; [|by erewrite retrypid_bad in H]. pose proof (retrypid_known answers w now p pre c post Hc Hw) as Ha. rewrite H in Ha.
      eapply retried_moved; [|exact Ha]. by constructor.
  - injection H as <- _. apply mv_same. intros ? ? ? ? Hd. inversion Hd.
  - destruct (decide (sp_id sp ∈ s_ids (v_sup w))) as [Hi|Hi].
    + destruct (find_id_cases w (sp_id sp)) as [Hn|(pre & c & post & Hc)].
      * by rewrite start_ghost in H by done.
      * erewrite start_taken in H by done. injection H as <- _. apply mv_same. intros ? ? ? ? Hd. inversion Hd.
    + rewrite start_new in H by done. destruct (sp_start sp) eqn:Es; [|done]. injection H as <- _. by apply mv_start.
  - destruct (find_id_cases w id) as [Hn|(pre & c & post & Hc)].
    + rewrite terminate_unknown in H by done. injection H as <- _. apply mv_same. intros ? ? ? ? Hd. inversion Hd.
    + erewrite terminate_known in H by done. injection H as <- _. by apply mv_terminate.
  - destruct (find_id_cases w id) as [Hn|(pre & c & post & Hc)].
    + rewrite restart_unknown in H by done. injection H as <- _. apply mv_same. intros ? ? ? ? Hd. inversion Hd.
    + erewrite restart_known in H by done. destruct (c_restarting c) eqn:Er; [injection H as <- _; apply mv_same; intros ? ? ? ? Hd; inversion Hd|].
      destruct (decide (is_Some (c_pid c))) as [Hs|Hs]; [injection H as <- _; apply mv_same; intros ? ? ? ? Hd; inversion Hd|].
      destruct (decide (startable c)); [|done]. injection H as <- _. apply mv_restart; try done. destruct (c_pid c); [destruct Hs; eauto|done].
  - destruct (find_id_cases w id) as [Hn|(pre & c & post & Hc)].
    + rewrite delete_unknown in H by done. injection H as <- _. apply mv_same. intros ? ? ? ? Hd. inversion Hd.
    + erewrite delete_known in H by done. destruct (c_restarting c) eqn:Er; [injection H as <- _; apply mv_same; intros ? ? ? ? Hd; inversion Hd|].
      destruct (decide (is_Some (c_pid c))) as [Hs|Hs]; [injection H as <- _; apply mv_same; intros ? ? ? ? Hd; inversion Hd|].
      injection H as <- _. apply mv_delete; try done. destruct (c_pid c); [destruct Hs; eauto|done].
  - injection H as <- _. apply mv_same. intros ? ? ? ? Hd. inversion Hd.
  - injection H as <- _. apply mv_same. intros ? ? ? ? Hd. inversion Hd.
Qed.
Lemma step_running w e w' : step answers w e = Running w' -> moved w e w'.
Proof.
  unfold step. intros H. destruct (handle answers e w) as [w1 [[r|x]|]] eqn:E; [|injection H as <-; by eapply handle_moved|done].
  unfold ends in H. destruct (terminate_children w1) as [w2 [[]|]]; done.
Qed.
Lemma ends_eq w r : exists w', ends w r = Ended w' r /\ v_log w' = v_log w ++ stops (rev (children w)) /\ children w' = keep is_temporary (map nopid (children w)).
Proof. destruct (terminate_children_all w) as (w' & E & ? & ? & _). exists w'. unfold ends. by rewrite E. Qed.
Lemma step_ended w e w' r : step answers w e = Ended w' r -> exists w1, moved w e w1 /\ ends w1 r = Ended w' r.
Proof.
  unfold step. intros H. destruct (handle answers e w) as [w1 [[r'|x]|]] eqn:E; [|done|done]. exists w1.
  split; [by eapply handle_moved|]. assert (r = r') as ->; [|done]. destruct (ends_eq w1 r') as (w2 & E2 & _). rewrite E2 in H. by injection H.
Qed.

(** ** What [attempts] says about lists *)
Lemma attempts_specs t l es l' f : attempts answers t l es l' f -> map c_spec l' = map c_spec l.
Proof. induction 1; cbn; congruence. Qed.
Lemma attempts_ids t l es l' f : attempts answers t l es l' f -> ids_of l' = ids_of l.
Proof. intros H. apply attempts_specs in H. unfold ids_of, c_id. rewrite <- !(map_map c_spec sp_id). by rewrite H. Qed.
Definition started_id (e : effect) : option string := match e with Starts id _ => Some id | Stops _ _ => None end.
Lemma attempts_order t l es l' f : attempts answers t l es l' f ->
  map started_id es = map Some (take (length es) (ids_of l)) /\ (f = None -> length es = length l).
Proof. induction 1 as [|t c l p es l' f Ea _ [IH1 IH2]|t c l es l' f Ea _ [IH1 IH2]|t c l e]; unfold ids_of in *; cbn; (split; [by rewrite ?IH1|]); try done; intros Hf; f_equal; auto. Qed.
Lemma attempts_answers t l es l' f : attempts answers t l es l' f -> forall i e, es !! i = Some e -> exists id, e = Starts id (answers (t + i)).
Proof.
  induction 1 as [|t c l p es l' f Ea _ IH|t c l es l' f Ea _ IH|t c l e He Hi]; intros i x Hx; [done| | |].
  - destruct i as [|i]; cbn in Hx; [injection Hx as <-; rewrite Nat.add_0_r; rewrite Ea; eauto|]. rewrite <- Nat.add_succ_comm. eauto.
  - destruct i as [|i]; cbn in Hx; [injection Hx as <-; rewrite Nat.add_0_r; rewrite Ea; eauto|]. rewrite <- Nat.add_succ_comm. eauto.
  - destruct i as [|i]; cbn in Hx; [injection Hx as <-; rewrite Nat.add_0_r; rewrite He; eauto|done].
Qed.
Lemma specs_stopped l : map c_spec (map stopped l) = map c_spec l.
Proof. rewrite map_map. apply map_ext. intros c. unfold stopped. by destruct (c_pid c). Qed.
Lemma restarted_specs w pre c post es l f w' : restarted answers w pre c post es l f w' -> map c_spec (children w') = map c_spec (pre ++ c :: post).
Proof.
  intros [Ha _ Hl _ _ _ _]. apply attempts_specs in Ha. rewrite Hl, !map_app, Ha. cbn [map].
  destruct (s_strategy (v_sup w)); cbn; rewrite ?map_app; cbn; rewrite ?specs_stopped, ?app_nil_r; done.
Qed.
Lemma ids_specs l l' : map c_spec l' = map c_spec l -> ids_of l' = ids_of l.
Proof. intros E. unfold ids_of. change c_id with (fun c => sp_id (c_spec c)). rewrite <- !(map_map c_spec sp_id). by rewrite E. Qed.
Lemma startable_specs l l' : map c_spec l' = map c_spec l -> Forall startable l -> Forall startable l'.
Proof.
  revert l'. induction l as [|c l IH]; intros [|c' l'] E H; try done. injection E as E1 E2. inversion H. constructor; [|by apply IH].
  unfold startable. rewrite E1. done.
Qed.

(** The options never change. *)
Definition same_options (s s' : sup) : Prop := s_strategy s' = s_strategy s /\ s_auto s' = s_auto s /\ s_max s' = s_max s /\ s_window s' = s_window s.
Lemma same_options_trans s1 s2 s3 : same_options s1 s2 -> same_options s2 s3 -> same_options s1 s3.
Proof. intros (?&?&?&?) (?&?&?&?). repeat split; congruence. Qed.
Lemma moved_options w e w' : moved w e w' -> same_options (v_sup w) (v_sup w').
Proof.
  destruct 1 as [| |e now pre c post es l f w' ? ? ? Hr| | | | |]; try done. exact (rs_options _ _ _ _ _ _ _ _ _ Hr).
Qed.
(** A property of the state kept by all moves holds as long as the supervisor runs. *)
Lemma plays_running (I : sworld -> Prop) w0 es w : (forall w e w', I w -> moved w e w' -> I w') -> I w0 -> plays answers (Running w0) es = Running w -> I w.
Proof.
  intros Hm. revert w0. induction es as [|e es IH]; intros w0 H0 H; [by injection H as <-|]. cbn in H.
  destruct (step answers w0 e) as [w1|w1 r|w1] eqn:E; [|by destruct es|by destruct es]. apply (IH w1); [|done]. eapply Hm; [exact H0|]. by apply step_running.
Qed.
(** ... and just before it ends its children. *)
Lemma plays_ended (I : sworld -> Prop) w0 es w r : (forall w e w', I w -> moved w e w' -> I w') -> I w0 -> plays answers (Running w0) es = Ended w r ->
  exists w1, I w1 /\ ends w1 r = Ended w r.
Proof.
  intros Hm. revert w0. induction es as [|e es IH]; intros w0 H0 H; [done|]. cbn in H.
  destruct (step answers w0 e) as [w1|w1 r1|w1] eqn:E.
  - apply (IH w1); [|done]. eapply Hm; [exact H0|]. by apply step_running.
  - assert (Ended w1 r1 = Ended w r) as E1 by (by destruct es). injection E1 as -> ->. apply step_ended in E as (w1 & Hmv & He). exists w1. split; [|done]. by eapply Hm.
  - by destruct es.
Qed.
End moves.
