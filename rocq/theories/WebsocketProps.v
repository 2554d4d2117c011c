(** Property theorems C65 and C66: the websocket process. *)
From stdpp Require Import base list gmap numbers strings countable.
From Coq Require Import Lia.
From Verif Require Import Types Websocket WebsocketSpec.

(** ** C65 *)
Lemma omap_sent ms : omap out (map VSent ms) = map OMessage ms.
Proof. induction ms as [|m ms IH]; cbn; congruence. Qed.
Lemma omap_sent_exit ms : omap is_exit (map VSent ms) = [] /\ omap is_terminate (map VSent ms) = [] /\ omap called (map VSent ms) = [] /\ omap returned (map VSent ms) = [].
Proof. induction ms as [|m ms IH]; cbn; auto. Qed.
Lemma meant_split b : meant b = map OMessage (fst (split_commands b)) ++ match snd (split_commands b) with Some (c, r) => [OClose c r] | None => [] end.
Proof. induction b as [|[m|c r] b IH]; cbn; try done. destruct (split_commands b) as [ms c]. cbn in *. by rewrite IH. Qed.
Lemma has_close_split b : has_close b = match snd (split_commands b) with Some _ => true | None => false end.
Proof. induction b as [|[m|c r] b IH]; [done| |done]. change (has_close (Send m :: b)) with (has_close b). rewrite IH. cbn. by destruct (split_commands b). Qed.

(** Whatever the socket does, what goes out is a prefix of what the buffer means: its messages in order
    up to the first Close, then the close frame, nothing after it. *)
Theorem C65_sends : forall (St : Type) (h : whandler St) b o st, omap out (fst (process_commands h b o st)) `prefix_of` meant b.
Proof.
  intros St h b o st. rewrite meant_split. unfold process_commands. destruct (split_commands b) as [ms close]. cbn [fst snd].
  destruct (o_send o) as [|k e].
  - destruct close as [[c r]|]; cbn [fst]; [destruct (o_close o); cbn [fst]|]; rewrite ?omap_app, omap_sent; cbn; rewrite ?app_nil_r; try done. by exists [OClose c r].
  - assert (map OMessage (take k ms) `prefix_of` map OMessage ms) as Hp by (exists (map OMessage (drop k ms)); by rewrite <- map_app, take_drop).
    destruct close as [[c r]|].
    + case_bool_decide as Hk.
      * rewrite take_ge by done. destruct (o_close o); cbn [fst]; rewrite !omap_app, omap_sent; cbn; rewrite ?app_nil_r; [by exists [OClose c r]|done].
      * cbn [fst]. rewrite omap_app, omap_sent. cbn. rewrite app_nil_r. etrans; [exact Hp|]. by exists [OClose c r].
    + cbn [fst]. rewrite omap_app, omap_sent. cbn. by rewrite !app_nil_r.
Qed.
Print Assumptions C65_sends.
(** Without socket errors: all of it, no terminate, and a request to exit with Normal exactly if there
    is a Close. *)
Theorem C65_no_errors : forall (St : Type) (h : whandler St) b o st, no_errors o -> let '(es, st') := process_commands h b o st in
  omap out es = meant b /\ omap is_terminate es = [] /\ st' = st /\
  omap is_exit es = (if has_close b then [RNormal] else []).
Proof.
  intros St h b o st (_ & Hs & Hc). rewrite meant_split. unfold process_commands. rewrite Hs, Hc.
  rewrite (has_close_split b). destruct (split_commands b) as [ms [[c r]|]]; cbn; pose proof (omap_sent_exit ms) as (E1 & E2 & _);
    rewrite ?omap_app, ?E1, ?E2, ?omap_sent; cbn; rewrite ?app_nil_r; auto.
Qed.
Print Assumptions C65_no_errors.
(** A failure of the sends: exactly the messages before it are out, terminate is called with the class
    of the error and the process told to exit with it. *)
Theorem C65_send_error : forall (St : Type) (h : whandler St) b o st k e, o_send o = FailsAt k e -> k < length (fst (split_commands b)) ->
  process_commands h b o st = (map VSent (take k (fst (split_commands b))) ++ [VTerminate (error_to_reason e); VExit (error_to_reason e)], w_terminate h st (error_to_reason e)).
Proof.
  intros St h b o st k e Ho Hk. unfold process_commands. destruct (split_commands b) as [ms close]. cbn [fst] in *. rewrite Ho.
  rewrite (bool_decide_false (length ms <= k)) by lia. by destruct close as [[]|].
Qed.
Print Assumptions C65_send_error.

(** terminate is called at most once ... *)
Definition C65_terminate_statement : Prop := forall (St : Type) (h : whandler St) b o st, length (omap is_terminate (fst (process_commands h b o st))) <= 1.
(** ... violated by the code: after a failed flush a Close command is still carried out, and terminate
    called again if that fails. *)
Definition quiet : whandler unit := WHandler (fun s => (s, inl None)) (fun s _ => (s, inl None)) (fun s _ => (s, inl None)) (fun s _ => s).
Theorem C65_terminate_refuted : ~ C65_terminate_statement.
Proof.
  intros H. specialize (H unit quiet [Send (WText 1); Close 1000 "bye"] (Outcomes None (FailsAt 1 EIo) (Some EAlreadyClosed)) tt).
  vm_compute in H. apply le_S_n in H. inversion H.
Qed.
Print Assumptions C65_terminate_refuted.
(** At most once in all other cases. *)
Theorem C65_terminate_partial : forall (St : Type) (h : whandler St) b o st,
  (forall k e e', o_send o = FailsAt k e -> o_close o = Some e' -> snd (split_commands b) <> None -> k < length (fst (split_commands b))) ->
  length (omap is_terminate (fst (process_commands h b o st))) <= 1.
Proof.
  intros St h b o st Hc. unfold process_commands. destruct (split_commands b) as [ms close]. cbn [fst snd] in Hc.
  assert (forall ms, omap is_terminate (map VSent ms) = []) as Hs by (intros ms0; apply omap_sent_exit).
  destruct (o_send o) as [|k e].
  - destruct close as [[c r]|]; cbn [fst]; [destruct (o_close o); cbn [fst]|]; rewrite ?omap_app, Hs; cbn; lia.
  - destruct close as [[c r]|]; cbn [fst]; [|rewrite omap_app, Hs; cbn; lia].
    case_bool_decide as Hk; cbn [fst]; [|rewrite omap_app, Hs; cbn; lia].
    destruct (o_close o) as [e'|] eqn:Eo; cbn [fst]; rewrite !omap_app, Hs; cbn; [|lia].
    exfalso. specialize (Hc k e e' eq_refl eq_refl). assert (k < length ms); [by apply Hc|lia].
Qed.
Print Assumptions C65_terminate_partial.
Example C65_example : fst (process_commands quiet (cmds_send (WText 3) (cmds_close 1000 "x" (cmds_send (WPing 2) (cmds_send (WText 1) cmds_new)))) (Outcomes None SentAll None) tt) =
  [VSent (WText 1); VSent (WPing 2); VClose 1000 "x"; VExit RNormal].
Proof. done. Qed.

(** ** C66 *)
Lemma cmds_quiet {St} (h : whandler St) b o st : omap called (fst (process_commands h b o st)) = [] /\ omap returned (fst (process_commands h b o st)) = [].
Proof.
  unfold process_commands. destruct (split_commands b) as [ms close].
  assert (forall ms, omap called (map VSent ms) = [] /\ omap returned (map VSent ms) = []) as Hs by (intros ms0; pose proof (omap_sent_exit ms0); tauto).
  destruct (o_send o) as [|k e]; destruct close as [[c r]|]; cbn [fst]; try (destruct (o_close o); cbn [fst]); try case_bool_decide; cbn [fst];
    rewrite ?omap_app; rewrite ?(proj1 (Hs _)), ?(proj2 (Hs _)); done.
Qed.
Lemma opt_quiet {St} (h : whandler St) b o st : omap called (fst (process_option h b o st)) = [] /\ omap returned (fst (process_option h b o st)) = [].
Proof. destruct b as [b|]; [apply cmds_quiet|done]. Qed.
Lemma cmds_no_ping {St} (h : whandler St) b o st m r : VHandle m r ∉ fst (process_option h b o st).
Proof.
  intros Hin. assert (KHandle m ∈ omap called (fst (process_option h b o st))) as Hx by (apply elem_of_list_omap; eauto).
  rewrite (proj1 (opt_quiet h b o st)) in Hx. by apply elem_of_nil in Hx.
Qed.

(** One round, against the specification. *)
Lemma turn_spec {St} (h : whandler St) i o st es s : ws_turn h i o st = (es, s) ->
  (omap called es = option_list (calls_for i) \/ (exists d, i = ISocket (WPing d) /\ omap called es = [] /\ s = WReturned)) /\
  (forall es1 d r es2, es = es1 ++ VHandle (WPing d) r :: es2 -> es1 = [VSent (WPong d)]) /\
  match s with
  | WGoing _ => (forall why, inr why ∉ omap returned es) /\ (forall e, i <> IError e) /\ i <> IEnd /\ (forall d, i <> ISocket (WClose d))
  | WReturned => exists es' why, es = es' ++ [VTerminate why; VExit why] /\
      (list.last (omap returned es') = Some (inr why) \/
       (exists e, i = IError e /\ why = error_to_reason e) \/
       (exists d e, i = ISocket (WPing d) /\ o_pong o = Some e /\ why = error_to_reason e) \/
       (exists d, i = ISocket (WClose d) /\ why = RCustom "connection_closed"))
  | WPanicked _ => i = IEnd
  end.
Proof.
  assert (forall m b o st (es1 : list wevent) d r (es2 : list wevent) (pre : list wevent) (post : list wevent) r0,
    (forall m' r', VHandle m' r' ∉ pre) -> (forall m' r', VHandle m' r' ∉ post) ->
    pre ++ VHandle m r0 :: fst (process_option h b o st) ++ post = es1 ++ VHandle (WPing d) r :: es2 -> es1 = pre /\ m = WPing d) as Hpos.
  { intros m b o0 st0 es1 d r es2 pre post r0 Hpre Hpost Heq. revert es1 Heq. induction pre as [|x pre IH]; intros es1 Heq.
    - destruct es1 as [|y es1]; cbn in Heq; [injection Heq as -> _ _; done|]. injection Heq as <- Heq. exfalso.
      assert (VHandle (WPing d) r ∈ fst (process_option h b o0 st0) ++ post) as Hin by (rewrite Heq; set_solver).
      apply elem_of_app in Hin as [Hin|Hin]; [by apply cmds_no_ping in Hin|by apply Hpost in Hin].
    - destruct es1 as [|y es1]; cbn in Heq.
      + injection Heq as -> _. exfalso. eapply Hpre. by left.
      + injection Heq as <- Heq. destruct (IH ltac:(intros m' r' Hin; eapply Hpre; by right) es1 Heq) as [-> ->]. done. }
  assert (forall m st' b pre, omap called pre = [] -> omap returned pre = [] ->
     let es := pre ++ VHandle m (inl b) :: fst (process_option h b o st') in omap called es = [KHandle m] /\ omap returned es = [inl b]) as Hgo.
  { intros m st' b pre H1 H2 es0. unfold es0. rewrite !omap_app, H1, H2. cbn. by rewrite (proj1 (opt_quiet h b o st')), (proj2 (opt_quiet h b o st')). }
  destruct i as [m|m|e|]; cbn [ws_turn].
  - destruct (w_info h st m) as [st' [b|why]] eqn:E.
    + destruct (process_option h b o st') as [es' st2] eqn:Ep. intros [= <- <-].
      pose proof (opt_quiet h b o st') as [Hq1 Hq2]. pose proof (cmds_no_ping h b o st') as Hn. rewrite Ep in Hq1, Hq2, Hn. cbn [fst] in *.
      split_and!.
      * left. cbn. by rewrite Hq1.
      * intros es1 d r es2 Heq. exfalso. assert (VHandle (WPing d) r ∈ VInfo m (inl b) :: es') as Hin by (rewrite Heq; set_solver).
        apply elem_of_cons in Hin as [?|Hin]; [discriminate|]. by apply Hn in Hin.
      * cbn. rewrite Hq2. intros why Hin. by apply elem_of_list_singleton in Hin.
      * done.
      * done.
      * done.
    + cbn. intros [= <- <-]. split_and!; [by left| |].
      * intros es1 d r es2 Heq. exfalso. assert (VHandle (WPing d) r ∈ [VInfo m (inr why); VTerminate why; VExit why]) as Hin by (rewrite Heq; set_solver).
        repeat (apply elem_of_cons in Hin as [?|Hin]; [discriminate|]). by apply elem_of_nil in Hin.
      * exists [VInfo m (inr why)], why. split; [done|]. by left.
  - assert (forall pre es s, (forall m' r', VHandle m' r' ∉ pre) -> omap called pre = [] -> omap returned pre = [] ->
      (forall d, m = WPing d -> pre = [VSent (WPong d)]) ->
      (let '(st, r) := w_handle h st m in
          match r with
          | inl b =>
              let '(es, st) := process_option h b o st in
              match m with
              | WClose _ => let '(es', s) := leave (RCustom "connection_closed") in (pre ++ VHandle m r :: es ++ es', s)
              | _ => (pre ++ VHandle m r :: es, WGoing st)
              end
          | inr why => let '(es, s) := leave why in (pre ++ VHandle m r :: es, s)
          end) = (es, s) ->
      (omap called es = [KHandle m]) /\
      (forall es1 d r es2, es = es1 ++ VHandle (WPing d) r :: es2 -> es1 = [VSent (WPong d)]) /\
      match s with
      | WGoing _ => (forall why, inr why ∉ omap returned es) /\ (forall d, m <> WClose d)
      | WReturned => exists es' why, es = es' ++ [VTerminate why; VExit why] /\
          (list.last (omap returned es') = Some (inr why) \/ (exists d, m = WClose d /\ why = RCustom "connection_closed"))
      | WPanicked _ => False
      end) as Hmain.
    { intros pre es0 s0 Hpre Hp1 Hp2 Hping. destruct (w_handle h st m) as [st' [b|why]].
      - specialize (Hgo m st' b pre Hp1 Hp2). specialize (fun es1 d r es2 post => Hpos m b o st' es1 d r es2 pre post (inl b) Hpre).
        destruct (process_option h b o st') as [es' st2] eqn:Ep. cbn [fst] in *. destruct Hgo as [G1 G2].
        assert ((forall d, m <> WClose d) -> (pre ++ VHandle m (inl b) :: es', WGoing st2) = (es0, s0) ->
          omap called es0 = [KHandle m] /\ (forall es1 d r es2, es0 = es1 ++ VHandle (WPing d) r :: es2 -> es1 = [VSent (WPong d)]) /\
          match s0 with WGoing _ => (forall why, inr why ∉ omap returned es0) /\ (forall d, m <> WClose d) | WReturned => False | WPanicked _ => False end) as Hn.
        { intros Hm [= <- <-]. split_and!; auto.
          - intros es1 d r es2 Heq. destruct (Hpos es1 d r es2 []) as [-> ->]; [by intros ? ? ?%elem_of_nil|by rewrite app_nil_r|]. by apply Hping.
          - intros why. rewrite G2. intros Hin. by apply elem_of_list_singleton in Hin. }
        destruct m as [d|d|d|d|d]; try (intros Heq; destruct (Hn ltac:(done) Heq) as (N1 & N2 & N3); destruct s0; [by auto|done|done]).
        cbn [leave]. intros [= <- <-]. split_and!.
        + rewrite app_comm_cons, app_assoc, omap_app, G1. done.
        + intros es1 d' r es2 Heq. destruct (Hpos es1 d' r es2 [VTerminate (RCustom "connection_closed"); VExit (RCustom "connection_closed")]) as [_ ?]; [set_solver|done|done].
        + exists (pre ++ VHandle (WClose d) (inl b) :: es'), (RCustom "connection_closed"). split; [by rewrite <- app_assoc|]. right. eauto.
      - cbn [leave]. intros [= <- <-]. split_and!.
        + rewrite omap_app, Hp1. done.
        + intros es1 d r es2 Heq. specialize (Hpos m None o st es1 d r es2 pre [VTerminate why; VExit why] (inr why) Hpre ltac:(set_solver)).
          cbn in Hpos. destruct (Hpos Heq) as [-> ->]. by apply Hping.
        + exists (pre ++ [VHandle m (inr why)]), why. split; [by rewrite <- app_assoc|]. left. rewrite omap_app, Hp2. done. }
    assert ((forall d, m <> WPing d) -> ws_turn h (ISocket m) o st = (es, s) ->
      (omap called es = option_list (calls_for (ISocket m)) \/ (exists d, ISocket m = ISocket (WPing d) /\ omap called es = [] /\ s = WReturned)) /\
      (forall es1 d r es2, es = es1 ++ VHandle (WPing d) r :: es2 -> es1 = [VSent (WPong d)]) /\
      match s with
      | WGoing _ => (forall why, inr why ∉ omap returned es) /\ (forall e, ISocket m <> IError e) /\ ISocket m <> IEnd /\ (forall d, ISocket m <> ISocket (WClose d))
      | WReturned => exists es' why, es = es' ++ [VTerminate why; VExit why] /\
          (list.last (omap returned es') = Some (inr why) \/ (exists e, ISocket m = IError e /\ why = error_to_reason e) \/
           (exists d e, ISocket m = ISocket (WPing d) /\ o_pong o = Some e /\ why = error_to_reason e) \/
           (exists d, ISocket m = ISocket (WClose d) /\ why = RCustom "connection_closed"))
      | WPanicked _ => ISocket m = IEnd
      end) as Hother.
    { intros Hm Heq. destruct (Hmain [] es s) as (M1 & M2 & M3); [set_solver|done|done|intros d ->; by destruct (Hm d)|destruct m; try exact Heq; by destruct (Hm d)|].
      split; [by left|]. split; [done|]. destruct s as [st'| |x]; [|destruct M3 as (es' & why & -> & [?|(d & -> & ->)])|done].
      - destruct M3 as [? M3]. split_and!; auto; try done. intros d [= ->]. by destruct (M3 d).
      - exists es', why. auto.
      - exists es', (RCustom "connection_closed"). split; [done|]. right. right. right. eauto. }
    destruct m as [d|d|d|d|d]; try (apply Hother; by intros). clear Hother. cbn [ws_turn]. destruct (o_pong o) as [e|] eqn:Eo.
    + cbn. intros [= <- <-]. split; [right; by exists d|]. split; [intros es1 d' r es2 Heq; exfalso|].
      * assert (VHandle (WPing d') r ∈ [VTerminate (error_to_reason e); VExit (error_to_reason e)]) as Hin by (rewrite Heq; set_solver). set_solver.
      * exists [], (error_to_reason e). split; [done|]. right. right. left. eauto.
    + intros Heq. destruct (Hmain [VSent (WPong d)] es s) as (M1 & M2 & M3); [set_solver|done|done|by intros d' [= ->]|exact Heq|].
      split; [by left|]. split; [done|]. destruct s as [st'| |x]; [|destruct M3 as (es' & why & -> & [?|(d' & ? & _)])|done].
      * destruct M3 as [? M3]. split_and!; auto; done.
      * exists es', why. auto.
      * discriminate.
  - cbn. intros [= <- <-]. split; [by left|]. split; [intros es1 d' r es2 Heq; exfalso|].
    + assert (VHandle (WPing d') r ∈ [VTerminate (error_to_reason e); VExit (error_to_reason e)]) as Hin by (rewrite Heq; set_solver). set_solver.
    + exists [], (error_to_reason e). split; [done|]. right. left. eauto.
  - intros [= <- <-]. split; [by left|]. split; [|done]. intros es1 d r es2 Heq. by destruct es1.
Qed.

Lemma runs_start_facts {St} (h : whandler St) st0 o0 : let '(es, s) := ws_start h o0 st0 in
  omap called es = [] /\ (forall m r, VHandle m r ∉ es) /\
  match s with
  | WGoing _ => forall why, inr why ∉ omap returned es
  | WReturned => exists why, es = [VInit (inr why); VExit why]
  | WPanicked _ => False
  end.
Proof.
  unfold ws_start. destruct (w_init h st0) as [st1 [b|why]].
  - pose proof (opt_quiet h b o0 st1) as [Q1 Q2]. pose proof (cmds_no_ping h b o0 st1) as Hn. destruct (process_option h b o0 st1) as [es st2]. cbn [fst] in *.
    split_and!.
    + cbn. done.
    + intros m r Hin. apply elem_of_cons in Hin as [?|Hin]; [discriminate|by apply Hn in Hin].
    + intros why. cbn. rewrite Q2. intros Hin. by apply elem_of_list_singleton in Hin.
  - split_and!; [done| |by exists why]. intros m r Hin. repeat (apply elem_of_cons in Hin as [?|Hin]; [discriminate|]). by apply elem_of_nil in Hin.
Qed.

(** The inputs get the callbacks they call for, one each, in order; the one exception is a last input
    that is a Ping whose Pong could not be sent. *)
Theorem C66_in_order : forall (St : Type) (h : whandler St) st0 o0 is es s, ws_runs h st0 o0 is es s ->
  omap called es = omap calls_for (map fst is) \/
  exists is' d o e, is = is' ++ [(ISocket (WPing d), o)] /\ o_pong o = Some e /\ s = WReturned /\ omap called es = omap calls_for (map fst is').
Proof.
  intros St h st0 o0 is es s H.
  assert (match s with WGoing _ => omap called es = omap calls_for (map fst is) | _ => True end /\ (omap called es = omap calls_for (map fst is) \/
    exists is' d o e, is = is' ++ [(ISocket (WPing d), o)] /\ o_pong o = Some e /\ s = WReturned /\ omap called es = omap calls_for (map fst is'))) as [_ ?]; [|done].
  induction H as [|is es st i o Hr [IH _]].
  - pose proof (runs_start_facts h st0 o0) as Hs. destruct (ws_start h o0 st0) as [es s]. destruct Hs as (E & _ & _). cbn [fst snd]. rewrite E. cbn. split; [by destruct s|by left].
  - destruct (ws_turn h i o st) as [es' s'] eqn:Et. cbn [fst snd].
    assert (omap called es' = option_list (calls_for i) \/ exists d e, i = ISocket (WPing d) /\ o_pong o = Some e /\ s' = WReturned /\ omap called es' = []) as [Hc|(d & e & -> & Ho & -> & Hc)].
    { destruct (turn_spec h i o st es' s' Et) as ([Hc|(d & -> & Hc & ->)] & _ & _); [by left|]. right.
      cbn [ws_turn] in Et. destruct (o_pong o) as [e|]; [exists d, e; done|]. exfalso.
      destruct (w_handle h st (WPing d)) as [st' [b|why]]; [destruct (process_option h b o st')|]; cbn in Et; injection Et; intros; subst; done. }
    + assert (omap called (es ++ es') = omap calls_for (map fst (is ++ [(i, o)]))) as Heq.
      { rewrite map_app, !omap_app, IH, Hc. cbn. by destruct (calls_for i). }
      split; [by destruct s'|by left].
    + split; [done|]. right. exists is, d, o, e. rewrite omap_app, Hc, app_nil_r. auto.
Qed.
Print Assumptions C66_in_order.

(** A Ping reaches the callback only right after a Pong carrying the same data went out. *)
Theorem C66_ping : forall (St : Type) (h : whandler St) st0 o0 is es s, ws_runs h st0 o0 is es s ->
  forall es1 d r es2, es = es1 ++ VHandle (WPing d) r :: es2 -> exists es0, es1 = es0 ++ [VSent (WPong d)].
Proof.
  intros St h st0 o0 is es s H. induction H as [|is es st i o Hr IH]; intros es1 d r es2 Heq.
  - pose proof (runs_start_facts h st0 o0) as Hs. destruct (ws_start h o0 st0) as [es s]. destruct Hs as (_ & E & _). cbn [fst] in Heq.
    exfalso. apply (E (WPing d) r). rewrite Heq. apply elem_of_app. right. left.
  - destruct (ws_turn h i o st) as [es' s'] eqn:Et. cbn [fst] in Heq.
    apply app_eq_inv in Heq as [(k & E1 & E2)|(k & E1 & E2)].
    + destruct k as [|x k].
      * cbn in E2. destruct (turn_spec h i o st es' s' Et) as (_ & Hp & _). specialize (Hp [] d r es2 (eq_sym E2)). discriminate.
      * injection E2 as <- E2. by eapply IH.
    + destruct (turn_spec h i o st es' s' Et) as (_ & Hp & _). specialize (Hp k d r es2 E2). subst k. by exists es.
Qed.
Print Assumptions C66_ping.

(** The loop ends only for one of these reasons, with terminate and exit as its last acts: the reason
    is the error the last callback returned, the class of the error the socket reported or the Pong
    failed with, or "connection_closed" for a Close frame; an error of init exits with that error. *)
Theorem C66_leaves : forall (St : Type) (h : whandler St) st0 o0 is es, ws_runs h st0 o0 is es WReturned ->
  (exists why, is = [] /\ es = [VInit (inr why); VExit why]) \/
  exists is' i o es' why, is = is' ++ [(i, o)] /\ es = es' ++ [VTerminate why; VExit why] /\
    (list.last (omap returned es') = Some (inr why) \/
     (exists e, i = IError e /\ why = error_to_reason e) \/
     (exists d e, i = ISocket (WPing d) /\ o_pong o = Some e /\ why = error_to_reason e) \/
     (exists d, i = ISocket (WClose d) /\ why = RCustom "connection_closed")).
Proof.
  intros St h st0 o0 is es H. remember WReturned as s eqn:Es. destruct H as [|is es st i o Hr].
  - left. pose proof (runs_start_facts h st0 o0) as Hs. destruct (ws_start h o0 st0) as [es s]. cbn [fst snd] in *. subst s. destruct Hs as (_ & _ & why & ->). by exists why.
  - right. destruct (ws_turn h i o st) as [es' s'] eqn:Et. cbn [fst snd] in *. subst s'.
    destruct (turn_spec h i o st es' WReturned Et) as (_ & _ & es2 & why & -> & Hw). exists is, i, o, (es ++ es2), why.
    split; [done|]. split; [by rewrite app_assoc|]. destruct Hw as [Hw|Hw]; [left|right; done]. rewrite omap_app, last_app, Hw. done.
Qed.
Print Assumptions C66_leaves.

(** As long as it goes on: no callback has returned an error, the socket has neither failed nor ended,
    and no Close frame has come in. *)
Theorem C66_going : forall (St : Type) (h : whandler St) st0 o0 is es st, ws_runs h st0 o0 is es (WGoing st) ->
  (forall why, inr why ∉ omap returned es) /\ (forall i o, (i, o) ∈ is -> (forall e, i <> IError e) /\ i <> IEnd /\ (forall d, i <> ISocket (WClose d))).
Proof.
  intros St h st0 o0 is es st H. remember (WGoing st) as s eqn:Es. revert st Es. induction H as [|is es st i o Hr IH]; intros st1 Es.
  - pose proof (runs_start_facts h st0 o0) as Hs. destruct (ws_start h o0 st0) as [es s]. cbn [fst snd] in *. subst s. split; [apply Hs|]. by intros i o ?%elem_of_nil.
  - destruct (IH st eq_refl) as [IH1 IH2]. destruct (ws_turn h i o st) as [es' s'] eqn:Et. cbn [fst snd] in *. subst s'.
    destruct (turn_spec h i o st es' _ Et) as (_ & _ & T1 & T2). split.
    + intros why. rewrite omap_app. intros [Hin|Hin]%elem_of_app; [by apply IH1 in Hin|by apply T1 in Hin].
    + intros i' o' [Hin|Hin]%elem_of_app; [by eapply IH2|]. apply elem_of_list_singleton in Hin. injection Hin as -> ->. done.
Qed.
Print Assumptions C66_going.

(** It panics only if the stream ends without a Close frame. *)
Theorem C66_panics : forall (St : Type) (h : whandler St) st0 o0 is es x, ws_runs h st0 o0 is es (WPanicked x) ->
  exists is' o, is = is' ++ [(IEnd, o)] /\ x = "Websocket closed without close frame!"%string.
Proof.
  intros St h st0 o0 is es x H. remember (WPanicked x) as s eqn:Es. destruct H as [|is es st i o Hr].
  - pose proof (runs_start_facts h st0 o0) as Hs. destruct (ws_start h o0 st0) as [es s]. cbn [fst snd] in *. subst s. tauto.
  - destruct (ws_turn h i o st) as [es' s'] eqn:Et. cbn [fst snd] in *. subst s'.
    destruct (turn_spec h i o st es' _ Et) as (_ & _ & ->). cbn in Et. injection Et as _ ->. eauto.
Qed.
Print Assumptions C66_panics.

(** Three things a user would expect besides, violated by the code. *)
(** No callback after the exit. *)
Definition C66_after_exit_statement : Prop := forall (St : Type) (h : whandler St) st0 o0 is es s, ws_runs h st0 o0 is es s ->
  forall es1 why es2, es = es1 ++ VExit why :: es2 -> omap called es2 = [].
Definition closes : whandler unit := WHandler (fun s => (s, inl (Some [Close 1000 "bye"]))) (fun s _ => (s, inl None)) (fun s _ => (s, inl None)) (fun s _ => s).
Theorem C66_after_exit_refuted : ~ C66_after_exit_statement.
Proof.
  intros H. pose proof (ws_runs_turn closes tt (Outcomes None SentAll None) [] _ _ (ISocket (WText 7)) (Outcomes None SentAll None)
    (ws_runs_start closes tt (Outcomes None SentAll None))) as Hr.
  specialize (H unit closes tt _ _ _ _ Hr [VInit (inl (Some [Close 1000 "bye"])); VClose 1000 "bye"] RNormal [VHandle (WText 7) (inl None)] eq_refl). discriminate.
Qed.
Print Assumptions C66_after_exit_refuted.
(** "terminate is called if the websocket connection closes for whatever reason, or a callback (except
    accept) returns stop with a given reason" (websocket_handler.rs:76-78): every exit comes with it. *)
Definition C66_terminate_statement : Prop := forall (St : Type) (h : whandler St) st0 o0 is es s, ws_runs h st0 o0 is es s ->
  omap is_exit es = omap is_terminate es.
Theorem C66_close_without_terminate_refuted : ~ C66_terminate_statement.
Proof. intros H. specialize (H unit closes tt _ _ _ _ (ws_runs_start closes tt (Outcomes None SentAll None))). discriminate. Qed.
Print Assumptions C66_close_without_terminate_refuted.
Definition refuses : whandler unit := WHandler (fun s => (s, inr RKill)) (fun s _ => (s, inl None)) (fun s _ => (s, inl None)) (fun s _ => s).
Theorem C66_init_error_refuted : ~ C66_terminate_statement.
Proof. intros H. specialize (H unit refuses tt _ _ _ _ (ws_runs_start refuses tt (Outcomes None SentAll None))). discriminate. Qed.
Print Assumptions C66_init_error_refuted.
(** Without those two (no Close command, init succeeds): every exit comes with terminate and the same reason. *)
Definition closing (r : wres) : bool := match r with inl (Some b) => has_close b | _ => false end.
Lemma cmds_paired {St} (h : whandler St) b o st : closing (inl b) = false ->
  omap is_exit (fst (process_option h b o st)) = omap is_terminate (fst (process_option h b o st)).
Proof.
  destruct b as [b|]; [|done]. cbn [closing process_option]. rewrite has_close_split. unfold process_commands. destruct (split_commands b) as [ms [?|]]; [done|]. intros _.
  destruct (o_send o) as [|k e]; cbn [fst].
  - pose proof (omap_sent_exit ms) as (-> & -> & _). done.
  - rewrite !omap_app. pose proof (omap_sent_exit (take k ms)) as (-> & -> & _). done.
Qed.
Lemma turn_paired {St} (h : whandler St) i o st : (forall r, r ∈ omap returned (fst (ws_turn h i o st)) -> closing r = false) ->
  omap is_exit (fst (ws_turn h i o st)) = omap is_terminate (fst (ws_turn h i o st)).
Proof.
  destruct i as [m|m|e|]; cbn [ws_turn]; [| |done|done].
  - destruct (w_info h st m) as [st' [b|why]]; [|done]. pose proof (cmds_paired h b o st') as Hp. destruct (process_option h b o st') as [es st2]. cbn [fst] in *.
    intros Hc. cbn. apply Hp. apply Hc. cbn. left.
  - assert (forall pre, omap is_exit pre = omap is_terminate pre -> let t := (let '(st, r) := w_handle h st m in
          match r with
          | inl b =>
              let '(es, st) := process_option h b o st in
              match m with
              | WClose _ => let '(es', s) := leave (RCustom "connection_closed") in (pre ++ VHandle m r :: es ++ es', s)
              | _ => (pre ++ VHandle m r :: es, WGoing st)
              end
          | inr why => let '(es, s) := leave why in (pre ++ VHandle m r :: es, s)
          end) in (forall r, r ∈ omap returned (fst t) -> closing r = false) -> omap is_exit (fst t) = omap is_terminate (fst t)) as Hmain.
    { intros pre Hpre. destruct (w_handle h st m) as [st' [b|why]].
      - pose proof (cmds_paired h b o st') as Hp. destruct (process_option h b o st') as [es st2]. cbn [fst leave] in *.
        destruct m; cbn [fst]; intros Hc; (rewrite !omap_app; cbn; rewrite ?omap_app; rewrite Hpre, Hp; [done|]); apply Hc; rewrite omap_app; apply elem_of_app; right; cbn; left.
      - cbn. rewrite !omap_app, Hpre. done. }
    destruct m as [d|d|d|d|d]; try (apply (Hmain []); done). destruct (o_pong o); [done|]. apply (Hmain [VSent (WPong d)]). done.
Qed.
Theorem C66_terminate_partial : forall (St : Type) (h : whandler St) st0 o0 is es s, ws_runs h st0 o0 is es s ->
  (forall why, VInit (inr why) ∉ es) -> (forall r, r ∈ omap returned es -> closing r = false) -> omap is_exit es = omap is_terminate es.
Proof.
  intros St h st0 o0 is es s H Hi. induction H as [|is es st i o Hr IH]; intros Hc.
  - unfold ws_start in *. destruct (w_init h st0) as [st1 [b|why]].
    + pose proof (cmds_paired h b o0 st1) as Hp. destruct (process_option h b o0 st1) as [es st2]. cbn [fst] in *. cbn. apply Hp, Hc. left.
    + exfalso. apply (Hi why). left.
  - rewrite !omap_app. rewrite IH, turn_paired; [done| | |].
    + intros r Hin. apply Hc. rewrite omap_app. set_solver.
    + intros why Hin. apply (Hi why). set_solver.
    + intros r Hin. apply Hc. rewrite omap_app. set_solver.
Qed.
Print Assumptions C66_terminate_partial.
Example C66_example : ws_runs quiet tt (Outcomes None SentAll None) [(ISocket (WPing 3), Outcomes None SentAll None); (ISocket (WClose None), Outcomes None SentAll None)]
  [VInit (inl None); VSent (WPong 3); VHandle (WPing 3) (inl None); VHandle (WClose None) (inl None); VTerminate (RCustom "connection_closed"); VExit (RCustom "connection_closed")] WReturned.
Proof.
  pose proof (ws_runs_turn quiet tt (Outcomes None SentAll None) [] _ _ (ISocket (WPing 3)) (Outcomes None SentAll None) (ws_runs_start quiet tt (Outcomes None SentAll None))) as H1.
  exact (ws_runs_turn quiet tt _ _ _ _ (ISocket (WClose None)) (Outcomes None SentAll None) H1).
Qed.

(** The exit reason tells the kind of the error. *)
Theorem C66_error_kinds : forall e e', error_to_reason e = error_to_reason e' <-> same_kind e e'.
Proof. intros e e'. destruct e, e'; cbn; split; try done. Qed.
Print Assumptions C66_error_kinds.
(** The text for every kind of error. *)
Definition error_texts : list (wserror * string) :=
  [(EAlreadyClosed, "connection_closed"); (EConnectionClosed, "connection_closed"); (EIo, "io_error"); (ETls, "tls_error");
   (EUtf8, "utf8_error"); (EAttack, "attack_attempt")]%string.
Theorem C66_error_texts : forall e,
  (forall s, (e, s) ∈ error_texts -> error_to_reason e = RCustom s) /\
  (e ∉ map fst error_texts -> error_to_reason e = RCustom "unknown").
Proof.
  intros e. split.
  - intros s H. repeat (apply elem_of_cons in H as [H|H]; [injection H as -> ->; done|]). by apply elem_of_nil in H.
  - intros H. destruct e; try done; exfalso; apply H; unfold error_texts; cbn [map fst];
      repeat (apply elem_of_cons; first [left; reflexivity | right]).
Qed.
Print Assumptions C66_error_texts.
Example C66_error_texts_example : error_to_reason EIo = RCustom "io_error" /\ EOther 3 ∉ map fst error_texts.
Proof. split; [done|]. cbn. intros H. repeat (apply elem_of_cons in H as [H|H]; [discriminate|]). by apply elem_of_nil in H. Qed.

