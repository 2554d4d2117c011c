(** Restart intensity over histories (C39), temporary children (C41), and what is violated (C39, C41, C42). *)
From stdpp Require Import base list gmap numbers strings sets.
From Coq Require Import ZArith Lia Sorted.
From Verif Require Import Types Super SuperSpec SuperProofs SuperTerm SuperHandle SuperMoves SuperProps SuperLife.

(** ** C39 *)
(** The message [e] asks for a restart at [now]: a child that is to be restarted has ended, or it is an attempt for a child. *)
Definition asked (w : sworld) (e : event) (now : Z) : Prop := exists pre c post, demands w pre c post e now.
(** ... and there is something to restart: an attempt counts only if the child still waits for it. *)
Definition due (w : sworld) (e : event) (now : Z) : Prop :=
  exists pre c post, demands w pre c post e now /\ match e with VExit _ _ _ => True | _ => c_restarting c = true end.
(** [es] leads from [w] to [w'] while the supervisor runs, with restarts in the sense of [D] at the times [ts]. *)
Inductive history (answers : nat -> answer) (D : sworld -> event -> Z -> Prop) : sworld -> list event -> list Z -> sworld -> Prop :=
| history_nil w : history answers D w [] [] w
| history_restart w e now w1 es ts w' : D w e now -> step answers w e = Running w1 -> history answers D w1 es ts w' -> history answers D w (e :: es) (now :: ts) w'
| history_other w e w1 es ts w' : (forall now, ~ D w e now) -> step answers w e = Running w1 -> history answers D w1 es ts w' -> history answers D w (e :: es) ts w'.

Definition in_order : list Z -> Prop := StronglySorted Z.le.
(** The restarts of the past and of this supervisor's record that lie in the window of any later time agree. *)
Definition agrees (s : sup) (past : list Z) (w : sworld) : Prop :=
  same_options s (v_sup w) /\ forall now, Forall (fun t => (t <= now)%Z) past -> filter (in_window s now) (s_restarts (v_sup w)) = filter (in_window s now) past.
Lemma in_window_options s s' now t : same_options s s' -> in_window s' now t <-> in_window s now t.
Proof. intros (_ & _ & _ & E). unfold in_window. by rewrite E. Qed.
Lemma too_many_options s s' l l' now : same_options s s' -> filter (in_window s now) l = filter (in_window s now) l' -> too_many s' l now <-> too_many s l' now.
Proof.
  intros Ho E. unfold too_many. assert (filter (in_window s' now) l = filter (in_window s now) l) as -> by (apply list_filter_iff; intros t; by apply in_window_options).
  rewrite E. destruct Ho as (_ & _ & -> & _). done.
Qed.
Lemma agrees_restarts s past w w' : s_restarts (v_sup w') = s_restarts (v_sup w) -> same_options (v_sup w) (v_sup w') -> agrees s past w -> agrees s past w'.
Proof. intros E Ho [H1 H2]. split; [by eapply same_options_trans|]. by rewrite E. Qed.
Lemma filter_filter_window s now now' (l : list Z) : (now <= now')%Z -> filter (in_window s now') (filter (in_window s now) l) = filter (in_window s now') l.
Proof.
  intros H. rewrite list_filter_filter. apply list_filter_iff. intros t. unfold in_window. lia.
Qed.
Lemma agrees_counted s past w now : Forall (fun t => (t <= now)%Z) past -> agrees s past w -> agrees s (past ++ [now]) (counted w now).
Proof.
  intros Hp [H1 H2]. split; [done|]. intros now' Hn. apply Forall_app in Hn as [Hn1 Hn2]. inversion Hn2; subst. cbn.
  rewrite !filter_app. f_equal. rewrite <- (H2 now' Hn1). rewrite <- (filter_filter_window s now now' (s_restarts (v_sup w))) by done.
  assert (filter (in_window (v_sup w) now) (s_restarts (v_sup w)) = filter (in_window s now) (s_restarts (v_sup w))) as -> by (apply list_filter_iff; intros t; by apply in_window_options). done.
Qed.

Section intensity.
Context (answers : nat -> answer).
Lemma moved_agrees s past w e w' : agrees s past w -> moved answers w e w' -> (forall now, ~ asked w e now) -> agrees s past w'.
Proof.
  intros Ha Hm Hn. pose proof (moved_options _ _ _ _ Hm) as Ho.
  destruct Hm as [| e now pre c post Hd|e now pre c post es l f w' Hd| | | | |]; try (by eapply agrees_restarts; [| |exact Ha]); (exfalso; eapply Hn; unfold asked; eauto).
Qed.
Lemma moved_agrees_asked s past w e now w' : agrees s past w -> moved answers w e w' -> asked w e now -> Forall (fun t => (t <= now)%Z) past -> agrees s (past ++ [now]) w'.
Proof.
  intros Ha Hm (pre & c & post & Hd) Hp.
  assert (forall n pre' c' post', demands w pre' c' post' e n -> n = now) as Hsame.
  { intros n pre' c' post' Hd'. destruct Hd; inversion Hd'; done. }
  destruct Hm as [e Hno|e n pre' c' post' Hd'|e n pre' c' post' es l f w' Hd' _ _ Hr Hrs|now' p r pre' c' post' Hc Hno| | | |].
  - exfalso. by eapply Hno.
  - rewrite (Hsame _ _ _ _ Hd'). by apply agrees_counted.
  - rewrite (Hsame _ _ _ _ Hd') in *. eapply agrees_restarts; [exact Hrs| |by apply agrees_counted]. by destruct Hr.
  - exfalso. inversion Hd; subst. destruct (child_of_unique _ _ _ _ _ _ _ _ H3 Hc) as (_ & -> & _). done.
  - inversion Hd.
  - inversion Hd.
  - inversion Hd.
  - inversion Hd.
Qed.
Lemma in_order_past ts now : in_order (ts ++ [now]) -> Forall (fun t => (t <= now)%Z) ts.
Proof. induction ts as [|t ts IH]; intros H; [constructor|]. inversion H as [|? ? H1 H2]; subst. constructor; [|by apply IH]. apply Forall_app in H2 as [_ H2]. by inversion H2. Qed.
Lemma in_order_app l l' : in_order (l ++ l') -> in_order l.
Proof. induction l as [|t l IH]; intros H; [constructor|]. inversion H as [|? ? H1 H2]; subst. constructor; [by apply IH|]. by apply Forall_app in H2 as [H2 _]. Qed.
Lemma history_agrees s w es ts w' : history answers asked w es ts w' -> forall past, agrees s past w -> in_order (past ++ ts) -> agrees s (past ++ ts) w'.
Proof.
  induction 1 as [w|w e now w1 es ts w' Hd Hs _ IH|w e w1 es ts w' Hd Hs _ IH]; intros past Ha Ho.
  - by rewrite app_nil_r.
  - assert (past ++ now :: ts = (past ++ [now]) ++ ts) as E by (by rewrite <- app_assoc). rewrite E in *. apply IH; [|done]. eapply moved_agrees_asked; [exact Ha|by apply step_running|done|].
    apply in_order_past. by eapply in_order_app.
  - apply IH; [|done]. eapply moved_agrees; [exact Ha|by apply step_running|done].
Qed.
Lemma asked_outcome s past w e now : agrees s past w -> asked w e now -> Forall (fun t => (t <= now)%Z) past -> window_ok s now -> Forall startable (children w) ->
  if decide (too_many s past now) then exists w', step answers w e = Ended w' (RCustom "shutdown") else exists w', step answers w e = Running w'.
Proof.
  intros [Ho Ha] (pre & c & post & Hd) Hp Hw Hs. apply (window_options _ _ _ Ho) in Hw.
  assert (too_many (v_sup w) (s_restarts (v_sup w)) now <-> too_many s past now) as Ht by (apply too_many_options; auto).
  assert (match handle answers e w with
          | (w', Some (inl r)) => too_many (v_sup w) (s_restarts (v_sup w)) now /\ r = give_up
          | (w', Some (inr _)) => ~ too_many (v_sup w) (s_restarts (v_sup w)) now
          | (_, None) => False
          end) as H.
  { destruct Hd as [now p r Hc Hr|now id Hc|now p Hc].
    - pose proof (exit_again answers w now p r pre c post Hc Hr Hw) as H. destruct (handle answers (VExit now p r) w) as [w' [[e|x]|]]; tauto.
    - pose proof (retry_known answers w now id pre c post Hc Hw) as H. destruct (handle answers (VTryAgain now id) w) as [w' [[e|x]|]]; cbn in H; tauto.
    - pose proof (retrypid_known answers w now p pre c post Hc Hw) as H. destruct (handle answers (VTryAgainPid now p) w) as [w' [[e|x]|]]; cbn in H; tauto. }
  unfold step. destruct (handle answers e w) as [w' [[r|x]|]]; [| |done].
  - destruct H as [H ->]. rewrite decide_True by tauto. destruct (ends_eq w' give_up) as (w2 & E & _). eauto.
  - rewrite decide_False by tauto. eauto.
Qed.
(** In every history whose restarts (requests for one) come at non-decreasing times [ts], the supervisor gives
    up at the next request exactly if more than the maximum of all these requests, with this one, lie in
    the window before [now]. *)
Theorem C39_intensity_partial s w0 es ts w e now : built s -> starts answers s = Running w0 -> history answers asked w0 es ts w -> asked w e now ->
  in_order (ts ++ [now]) -> window_ok s now -> Forall startable (children w) ->
  if decide (too_many s ts now) then exists w', step answers w e = Ended w' (RCustom "shutdown") else exists w', step answers w e = Running w'.
Proof.
  intros Hb H0 Hh Hd Ho Hw Hs. eapply asked_outcome; try done; [|by apply in_order_past]. apply (history_agrees s _ _ _ _ Hh []); [|by eapply in_order_app].
  pose proof (starts_eq answers s) as He. rewrite H0 in He. destruct He as (l' & _ & _ & He & _). split; [by rewrite He|]. intros n _. rewrite He. cbn. by rewrite (fr_restarts _ (built_fresh _ Hb)).
Qed.
End intensity.
(** The property as it is meant: only restarts count. *)
Definition C39_statement : Prop := forall answers s w0 es ts w e now,
  built s -> starts answers s = Running w0 -> history answers due w0 es ts w -> due w e now -> in_order (ts ++ [now]) -> window_ok s now -> Forall startable (children w) ->
  if decide (too_many s ts now) then exists w', step answers w e = Ended w' (RCustom "shutdown") else exists w', step answers w e = Running w'.
(** At most two restarts; b ends and its start fails (1); it is terminated by terminate_child; the attempt for it
    restarts nothing but counts (2); then a ends, the second restart: the supervisor gives up. *)
Definition abc_sup (st : strategy) (mx : N) : sup := sup3 st Never mx (spec_of "a" Permanent false) (spec_of "b" Transient false) (spec_of "c" Temporary false).
Example abc_built st mx : built (abc_sup st mx).
Proof. exists st, Never, mx, 5000000000%N, [spec_of "a" Permanent false; spec_of "b" Transient false; spec_of "c" Temporary false]. destruct st; reflexivity. Qed.
Definition x1 : event := VExit 100 (PLocal 1) RKill.
Definition x2 : event := VTerminate "b".
Definition x3 : event := VTryAgain 200 "b".
Definition x4 : event := VExit 300 (PLocal 0) RKill.
Definition after_events (es : list event) : sworld := world_of (plays fail3 (starts fail3 (abc_sup OneForOne 2)) es).
Lemma run_after es e : match step fail3 (after_events es) e with Running _ => True | _ => False end -> plays fail3 (starts fail3 (abc_sup OneForOne 2)) (es ++ [e]) = step fail3 (after_events es) e ->
  step fail3 (after_events es) e = Running (after_events (es ++ [e])).
Proof. intros H E. unfold after_events at 2. rewrite E. by destruct (step fail3 (after_events es) e). Qed.
Lemma plays_snoc answers l es e : plays answers l (es ++ [e]) = match plays answers l es with Running w => step answers w e | x => x end.
Proof.
  revert l. induction es as [|x es IH]; intros l; cbn.
  - destruct l; [|done|done]. by destruct (step answers w e).
  - destruct l; [apply IH|done|done].
Qed.
Lemma after_step es e : match plays fail3 (starts fail3 (abc_sup OneForOne 2)) es with Running _ => True | _ => False end ->
  match step fail3 (after_events es) e with Running _ => True | _ => False end -> step fail3 (after_events es) e = Running (after_events (es ++ [e])).
Proof.
  intros H1 H2. apply run_after; [done|]. rewrite plays_snoc. unfold after_events. destruct (plays fail3 (starts fail3 (abc_sup OneForOne 2)) es); done.
Qed.
Definition kid_b (p : option pid) (r : bool) : child := Child (spec_of "b" Transient false) p r.
Lemma due_called w id now pre c post : child_called w id pre c post -> c_restarting c = false -> forall n, ~ due w (VTryAgain now id) n.
Proof. intros Hc Hr n (pre' & c' & post' & Hd & H). inversion Hd as [|? ? Hc'|]; subst. destruct (child_called_unique _ _ _ _ _ _ _ _ Hc Hc') as (_ & -> & _). congruence. Qed.
Theorem C39_refuted : ~ C39_statement.
Proof.
  intros H. specialize (H fail3 (abc_sup OneForOne 2) (after_events []) [x1; x2; x3] [100%Z] (after_events [x1; x2; x3]) x4 300%Z).
  assert (children (after_events []) = [kid (spec_of "a" Permanent false) 0; kid_b (Some (PLocal 1)) false; kid (spec_of "c" Temporary false) 2]) as E0 by (vm_compute; reflexivity).
  assert (children (after_events [x1; x2]) = [kid (spec_of "a" Permanent false) 0; kid_b None false; kid (spec_of "c" Temporary false) 2]) as E2 by (vm_compute; reflexivity).
  assert (children (after_events [x1; x2; x3]) = [kid (spec_of "a" Permanent false) 0; kid_b None false; kid (spec_of "c" Temporary false) 2]) as E3 by (vm_compute; reflexivity).
  assert (step fail3 (after_events []) x1 = Running (after_events [x1])) as S1 by (apply (after_step [] x1); vm_compute; exact I).
  assert (step fail3 (after_events [x1]) x2 = Running (after_events [x1; x2])) as S2 by (apply (after_step [x1] x2); vm_compute; exact I).
  assert (step fail3 (after_events [x1; x2]) x3 = Running (after_events [x1; x2; x3])) as S3 by (apply (after_step [x1; x2] x3); vm_compute; exact I).
  assert (if decide (too_many (abc_sup OneForOne 2) [100%Z] 300) then exists w', step fail3 (after_events [x1; x2; x3]) x4 = Ended w' (RCustom "shutdown") else exists w', step fail3 (after_events [x1; x2; x3]) x4 = Running w') as H'.
  { apply H.
    - apply abc_built.
    - assert (match starts fail3 (abc_sup OneForOne 2) with Running _ => True | _ => False end) as R by (vm_compute; exact I).
      unfold after_events. cbn [plays]. clear -R. destruct (starts fail3 (abc_sup OneForOne 2)); [reflexivity|destruct R|destruct R].
    - eapply history_restart; [|exact S1|eapply history_other; [|exact S2|eapply history_other; [|exact S3|apply history_nil]]].
      + exists [kid (spec_of "a" Permanent false) 0], (kid_b (Some (PLocal 1)) false), [kid (spec_of "c" Temporary false) 2]. split; [|exact I]. constructor; [|split; discriminate].
        split; [exact E0|reflexivity|]. constructor; [discriminate|constructor].
      + intros n (? & ? & ? & Hd & _). inversion Hd.
      + apply (due_called _ _ _ [kid (spec_of "a" Permanent false) 0] (kid_b None false) [kid (spec_of "c" Temporary false) 2]); [|reflexivity].
        split; [exact E2|reflexivity|]. constructor; [discriminate|constructor].
    - exists [], (kid (spec_of "a" Permanent false) 0), [kid_b None false; kid (spec_of "c" Temporary false) 2]. split; [|exact I]. constructor; [|exact I].
      split; [exact E3|reflexivity|constructor].
    - constructor; [constructor; constructor|]. constructor; [lia|constructor].
    - unfold window_ok. vm_compute. discriminate.
    - rewrite E3. apply startable_b. reflexivity. }
  destruct (decide _) as [Hd|Hd].
  - revert Hd. vm_compute. discriminate.
  - destruct H' as [w' H']. revert H'. apply not_running. vm_compute. exact I.
Qed.
(** A window that reaches before the beginning of the clock makes the supervisor panic at the first restart. *)
Definition big : sworld := world_of (starts up (match add_child (new_sup OneForOne Never 3 18446744073709551615999999999) (spec_of "a" Permanent false) with Some s => s | None => new_sup OneForOne Never 3 0 end)).
Theorem C39_window_refuted : ~ (forall answers w now p r pre c post, child_of w p pre c post -> to_be_restarted (sp_restart (c_spec c)) r -> forall w', step answers w (VExit now p r) <> Panicking w').
Proof.
  intros H. assert (child_of big (PLocal 0) [] (kid (spec_of "a" Permanent false) 0) []) as Hc by (split; [vm_compute; reflexivity|reflexivity|constructor]).
  specialize (H up big 86400000000000%Z (PLocal 0) RKill [] _ [] Hc I big). apply H. unfold step. erewrite exit_bad; [reflexivity|exact Hc|exact I|]. unfold window_ok. vm_compute. auto.
Qed.

(** ** C41: temporary children *)
(** A temporary child's start function is called once, by the start of the supervisor: ends of children and later
    attempts never call it. *)
Definition C41_statement : Prop := forall answers s es w w' e l id c,
  built s -> plays answers (starts answers s) es = Running w -> (match e with VExit _ _ _ | VTryAgain _ _ => True | _ => False end) ->
  step answers w e = Running w' -> v_log w' = v_log w ++ l -> c ∈ children w -> c_id c = id -> sp_restart (c_spec c) = Temporary -> Forall (fun x => started_id x <> Some id) l.
Theorem C41_refuted : ~ C41_statement.
Proof.
  intros H. set (w0 := abc RestForOne 3).
  destruct (is_running (step up w0 x1) (fun w' => v_log w' = v_log w0 ++ [Stops (PLocal 2) (Within 5000000000); Starts "b" (Up (PLocal 3)); Starts "c" (Up (PLocal 4))])) as (w' & E & El).
  { vm_compute. reflexivity. }
  assert (Forall (fun x => started_id x <> Some "c") [Stops (PLocal 2) (Within 5000000000); Starts "b" (Up (PLocal 3)); Starts "c" (Up (PLocal 4))]) as HF.
  { apply (H up (abc_sup RestForOne 3) [] w0 w' x1 _ "c" (kid (spec_of "c" Temporary false) 2)); [apply abc_built| |exact I|exact E|exact El| |reflexivity|reflexivity].
    - assert (match starts up (abc_sup RestForOne 3) with Running _ => True | _ => False end) as R by (vm_compute; exact I).
      cbn [plays]. unfold w0, abc, three. fold (abc_sup RestForOne 3). clear -R. destruct (starts up (abc_sup RestForOne 3)); [reflexivity|destruct R|destruct R].
    - unfold w0. rewrite abc_children. right. right. left. }
  apply Forall_inv_tail, Forall_inv_tail, Forall_inv in HF. by apply HF.
Qed.
(** ... and its specification is deleted when it is terminated by terminate_child. *)
Definition C41_terminate_statement : Prop := forall answers w id w', (forall c, c ∈ children w -> c_id c = id -> sp_restart (c_spec c) = Temporary) ->
  step answers w (VTerminate id) = Running w' -> Forall (fun c => c_id c <> id) (children w').
Theorem C41_terminate_refuted : ~ C41_terminate_statement.
Proof.
  intros H. set (w0 := abc OneForOne 3).
  destruct (is_running (step up w0 (VTerminate "c")) (fun w' => children w' = [kid (spec_of "a" Permanent false) 0; kid (spec_of "b" Transient false) 1; Child (spec_of "c" Temporary false) None false])) as (w' & E & El).
  { vm_compute. reflexivity. }
  assert (Forall (fun c => c_id c <> "c") (children w')) as HF.
  { apply (H up w0 "c" w'); [|exact E]. unfold w0. rewrite abc_children. intros c Hc Hid. apply elem_of_cons in Hc as [->|Hc]; [discriminate|]. apply elem_of_cons in Hc as [->|Hc]; [discriminate|]. apply elem_of_list_singleton in Hc as ->. reflexivity. }
  rewrite El in HF. apply Forall_inv_tail, Forall_inv_tail, Forall_inv in HF. by apply HF.
Qed.
(** With strategy OneForOne: whatever has happened before, the end of a child and a later attempt start only children that are not
    temporary; and a temporary child that ends is removed (C37_removed). *)
Section temporary.
Context (answers : nat -> answer).
Definition calm (w : sworld) : Prop := s_strategy (v_sup w) = OneForOne /\ forall c, c ∈ children w -> sp_restart (c_spec c) = Temporary -> c_restarting c = false.
Lemma restarted_one w now pre c post es l f w' : s_strategy (v_sup w) = OneForOne -> restarted answers (counted w now) pre c post es l f w' ->
  (exists a, es = [Starts (c_id c) a]) /\ exists c', l = [c'] /\ c_spec c' = c_spec c /\ children w' = pre ++ c' :: post.
Proof.
  intros Es [Ha _ Hl _ _ _ _]. cbn in *. rewrite Es in *. cbn in *. inversion Ha as [|? ? ? ? ? ? ? ? Ha'|? ? ? ? ? ? ? Ha'|]; subst; try (inversion Ha'; subst); (split; [eauto|]); eexists; split_and!; try reflexivity; exact Hl.
Qed.
Lemma demands_temp w pre c post e now : calm w -> demands w pre c post e now -> match e with VExit _ p _ => c_pid c = Some p | _ => c_restarting c = true end -> sp_restart (c_spec c) <> Temporary.
Proof.
  intros [_ Hc] Hd He Ht. destruct Hd as [? ? ? ? Hr|? ? Hcc|? ? Hcc]; [by rewrite Ht in Hr| |];
  (rewrite (Hc c) in He; [done| |done]); destruct Hcc as [-> _ _]; set_solver.
Qed.
Lemma moved_calm w e w' : calm w -> moved answers w e w' -> calm w'.
Proof.
  intros Hcalm Hm. pose proof Hcalm as [Hs Hc]. pose proof (moved_options _ _ _ _ Hm) as (Ho & _). split; [congruence|].
  destruct Hm as [e _|e now pre c post Hd|e now pre c post es l f w' Hd He _ Hr _|now p r pre c post Hcc _|id pre c post Hcc _ _|id pre c post Hcc|id pre c post Hcc Hnr _ _|sp Hi Hsp]; intros x Hx Ht.
  - by apply Hc.
  - by apply Hc.
  - pose proof (demands_temp _ _ _ _ _ _ Hcalm Hd He) as Hnt. apply demands_list in Hd. apply (restarted_one _ _ _ _ _ _ _ _ _ Hs) in Hr as (_ & c' & _ & Hsp & El). rewrite El in Hx.
    assert (x = c' \/ x ∈ pre ++ post) as [->|Hx'] by set_solver; [congruence|]. apply Hc; [rewrite Hd; set_solver|done].
  - cbn in Hx. apply Hc; [|done]. rewrite (co_list _ _ _ _ _ Hcc). set_solver.
  - cbn in Hx. apply Hc; [|done]. rewrite (cc_list _ _ _ _ _ Hcc). set_solver.
  - cbn in Hx. pose proof (cc_list _ _ _ _ _ Hcc) as El. assert (x = stopped c \/ x ∈ pre ++ post) as [->|Hx'] by set_solver; [|apply Hc; [rewrite El; set_solver|done]].
    unfold stopped in *. destruct (c_pid c); [done|]. apply Hc; [rewrite El; set_solver|done].
  - cbn in Hx. pose proof (cc_list _ _ _ _ _ Hcc) as El. set (d := match answers (v_tick w) with Up p => running_as c p | Down _ => c end) in *.
    assert (x = d \/ x ∈ pre ++ post) as [->|Hx'] by set_solver; [|apply Hc; [rewrite El; set_solver|done]]. unfold d. by destruct (answers (v_tick w)).
  - cbn in Hx. apply elem_of_app in Hx as [Hx|Hx]; [by apply Hc|]. destruct (answers (v_tick w)) as [p|[]]; try (apply elem_of_list_singleton in Hx; by subst).
    destruct (decide _); [by apply elem_of_nil in Hx|]. apply elem_of_list_singleton in Hx; by subst.
Qed.
Theorem C41_one_for_one_partial s es w w' e l id : built s -> s_strategy s = OneForOne -> plays answers (starts answers s) es = Running w ->
  (match e with VExit _ _ _ | VTryAgain _ _ | VTryAgainPid _ _ => True | _ => False end) -> step answers w e = Running w' -> v_log w' = v_log w ++ l ->
  forall x, x ∈ l -> started_id x = Some id -> exists c, c ∈ children w /\ c_id c = id /\ sp_restart (c_spec c) <> Temporary.
Proof.
  intros Hb Hst Hp He Hs Hl x Hx Hid.
  assert (calm w) as Hcalm.
  { destruct (starts answers s) as [w0|w0 r|w0] eqn:E; [|by destruct es|by destruct es]. eapply (plays_running answers calm); [apply moved_calm| |exact Hp].
    pose proof (starts_eq answers s) as Hs0. rewrite E in Hs0. destruct Hs0 as (l' & Ha & Hc & Hs0 & _). split; [by rewrite Hs0|]. intros c Hin _.
    rewrite Hc in Hin. apply keep_in in Hin. destruct (c_restarting c) eqn:Er; [|done]. exfalso. apply attempts_all in Ha as (_ & Hlen & Ha). apply elem_of_list_lookup in Hin as [i Hi].
    destruct (s_children s !! i) as [d|] eqn:Ed; [|apply lookup_ge_None in Ed; apply lookup_lt_Some in Hi; lia]. destruct (Ha _ _ Ed) as [_ [(p & _ & H)|[_ H]]]; rewrite Hi in H; injection H as ->; done. }
  apply step_running in Hs. pose proof Hcalm as [Hone _].
  destruct Hs as [e _|e now pre c post Hd|e now pre c post es' l' f w' Hd Hwhy _ Hr _|now p r pre c post Hcc _| | | |]; try done.
  - exfalso. rewrite <- (app_nil_r (v_log w)) in Hl at 1. apply app_inv_head in Hl as <-. by apply elem_of_nil in Hx.
  - exfalso. cbn in Hl. rewrite <- (app_nil_r (v_log w)) in Hl at 1. apply app_inv_head in Hl as <-. by apply elem_of_nil in Hx.
  - pose proof (demands_temp _ _ _ _ _ _ Hcalm Hd Hwhy) as Hnt. apply demands_list in Hd. exists c. split; [rewrite Hd; set_solver|]. split; [|done].
    pose proof Hr as Hr'. apply (restarted_one _ _ _ _ _ _ _ _ _ Hone) in Hr' as ([a ->] & _). destruct Hr as [_ Hlog _ _ _ _ _]. cbn in Hlog. rewrite Hone in Hlog. cbn in Hlog.
    rewrite Hlog in Hl. apply app_inv_head in Hl as <-. apply elem_of_list_singleton in Hx as ->. cbn in Hid. congruence.
  - exfalso. cbn in Hl. rewrite <- (app_nil_r (v_log w)) in Hl at 1. apply app_inv_head in Hl as <-. by apply elem_of_nil in Hx.
Qed.
End temporary.

(** ** C42: panics *)
Definition C42_no_panic_statement : Prop := forall answers s es w, built s -> plays answers (starts answers s) es <> Panicking w.
(** start_child with a temporary child whose start function says "ignore" leaves its id behind: the second such call panics. *)
Definition ignore (n : nat) : answer := Down RIgnore.
Definition empty_sup : sup := new_sup OneForOne Never 3 5000000000.
Theorem C42_no_panic_refuted : ~ C42_no_panic_statement.
Proof.
  intros H. assert (match plays ignore (starts ignore empty_sup) [VStart (spec_of "t" Temporary false); VStart (spec_of "t" Temporary false)] with Panicking _ => True | _ => False end) as Hp by (vm_compute; exact I).
  destruct (plays ignore (starts ignore empty_sup) _) as [| |w] eqn:E in Hp; try done. revert E. apply H. by exists OneForOne, Never, 3%N, 5000000000%N, [].
Qed.
(** A specification without start function panics when it is started. *)
Theorem C42_no_start_function_refuted : ~ C42_no_panic_statement.
Proof.
  intros H. assert (match plays up (starts up empty_sup) [VStart (Spec "t" false Permanent None Worker false)] with Panicking _ => True | _ => False end) as Hp by (vm_compute; exact I).
  destruct (plays up (starts up empty_sup) _) as [| |w] eqn:E in Hp; try done. revert E. apply H. by exists OneForOne, Never, 3%N, 5000000000%N, [].
Qed.
(** ** The hypotheses are met *)
Definition busy : list event :=
  [VExit 100 (PLocal 1) RKill; VStart (spec_of "d" Transient false); VTerminate "a"; VRestart "a"; VTryAgain 150 "b"; VDelete "d"; VTerminate "d"; VDelete "d"; VCount; VExit 200 (PLocal 2) RNormal].
Example C42_busy : match plays fail3 (starts fail3 (abc_sup OneForOne 3)) busy with Running w => ids_of (children w) = ["a"; "b"] /\ map c_pid (children w) = [Some (PLocal 5); Some (PLocal 6)] | _ => False end.
Proof. vm_compute. auto. Qed.
Example C42_copes : Forall (copes fail3 (abc_sup OneForOne 3)) busy.
Proof.
  repeat constructor; try (unfold copes, window_ok; vm_compute; discriminate); try exact I.
Qed.
Example C43_ended : exists w, plays fail3 (starts fail3 (abc_sup OneForOne 3)) (busy ++ [VStop RNormal]) = Ended w RNormal.
Proof. apply is_ended. vm_compute. reflexivity. Qed.
Example C43_start_failed_ex : exists w, starts (fun n => match n with 2 => Down (RCustom "x") | _ => up n end) (abc_sup OneForOne 3) = Ended w (RCustom "failed_to_start_child").
Proof. apply is_ended. vm_compute. reflexivity. Qed.
Print Assumptions C39_intensity_partial.
Print Assumptions C39_refuted.
Print Assumptions C39_window_refuted.
Print Assumptions C41_refuted.
Print Assumptions C41_terminate_refuted.
Print Assumptions C41_one_for_one_partial.
Print Assumptions C42_unique_ids.
Print Assumptions C42_start_taken.
Print Assumptions C42_no_panic_partial.
Print Assumptions C42_no_panic_refuted.
Print Assumptions C42_no_start_function_refuted.
Print Assumptions C43_started.
Print Assumptions C43_start_failed.
Print Assumptions C43_reverse.
Print Assumptions C43_stop.
Print Assumptions C43_no_child_left.
