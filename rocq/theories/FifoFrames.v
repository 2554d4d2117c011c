(** Frames with messages come from sends only; what a connection is given, in order: proofs. *)
From stdpp Require Import base list gmap numbers strings countable sorting relations.
From Coq Require Import Lia.
From Verif Require Import Prog ProgProofs ProgInv Types Mailbox MailboxSpec World ProcApi NodeApi Api Steps Hist Labels SchedSpec SchedProofs
  LiveProofs ClientRun OriginSpec OriginProofs OrderProps FifoSpec FifoProofs ConnLasts.

Section frames.
  Context (S : serde).
  Notation lstep := (lstep S).
  Ltac lab := first
    [ refine (ex_intro _ (ANone) (conj _ eq_refl))
    | refine (ex_intro _ (AFreshRef) (conj _ eq_refl))
    | refine (ex_intro _ (AOwnAlias _ _) (conj _ eq_refl))
    | refine (ex_intro _ (AOwnUnalias _ _) (conj _ eq_refl))
    | refine (ex_intro _ (AOwnMonitor _ _ _) (conj _ eq_refl))
    | refine (ex_intro _ (AOwnDemonitor _ _) (conj _ eq_refl))
    | refine (ex_intro _ (AReceive _ _ _ _) (conj _ eq_refl))
    | refine (ex_intro _ (AAliasCreate _ _ _) (conj _ eq_refl))
    | refine (ex_intro _ (AAliasDelete _) (conj _ eq_refl))
    | refine (ex_intro _ (AAliasTake _) (conj _ eq_refl))
    | refine (ex_intro _ (APush _ _) (conj _ eq_refl))
    | refine (ex_intro _ (ASendTo _ _) (conj _ eq_refl))
    | refine (ex_intro _ (ANodeRegister _ _ _) (conj _ eq_refl))
    | refine (ex_intro _ (ASendFrame _ _) (conj _ eq_refl))
    | refine (ex_intro _ (ATaskAdd _ _ _ _) (conj _ eq_refl))
    | refine (ex_intro _ (ATaskKill _) (conj _ eq_refl))
    | refine (ex_intro _ (ATimerAdd _ _) (conj _ eq_refl))
    | refine (ex_intro _ (ATimerDelete _) (conj _ eq_refl))
    | refine (ex_intro _ (ATick) (conj _ eq_refl))
    | refine (ex_intro _ (AAlloc) (conj _ eq_refl))
    | refine (ex_intro _ (ARunning _) (conj _ eq_refl))
    | refine (ex_intro _ (AInsert _) (conj _ eq_refl))
    | refine (ex_intro _ (ARegister _ _) (conj _ eq_refl))
    | refine (ex_intro _ (ANameDelete _) (conj _ eq_refl))
    | refine (ex_intro _ (AUnname _) (conj _ eq_refl))
    | refine (ex_intro _ (ASetFlags _ _) (conj _ eq_refl))
    | refine (ex_intro _ (ASetExit _ _) (conj _ eq_refl))
    | refine (ex_intro _ (AExit _ _ _) (conj _ eq_refl))
    | refine (ex_intro _ (AExitLinked _ _ _) (conj _ eq_refl))
    | refine (ex_intro _ (ARegDelete _) (conj _ eq_refl))
    | refine (ex_intro _ (AGone _) (conj _ eq_refl))
    | refine (ex_intro _ (AAddLink _ _) (conj _ eq_refl))
    | refine (ex_intro _ (ADelLink _ _) (conj _ eq_refl))
    | refine (ex_intro _ (ALinksDelete _) (conj _ eq_refl))
    | refine (ex_intro _ (AAddMon _ _ _ _) (conj _ eq_refl))
    | refine (ex_intro _ (ADelMon _ _) (conj _ eq_refl))
    | refine (ex_intro _ (AMonsDelete _) (conj _ eq_refl))
    | refine (ex_intro _ (AAddNlink _ _ _) (conj _ eq_refl))
    | refine (ex_intro _ (ADelNlinks _ _) (conj _ eq_refl))
    | refine (ex_intro _ (ANlinksDelete _) (conj _ eq_refl))
    | refine (ex_intro _ (AAddNmon _ _ _) (conj _ eq_refl))
    | refine (ex_intro _ (ADelNmon _ _) (conj _ eq_refl))
    | refine (ex_intro _ (ADelNmons _ _) (conj _ eq_refl))
    | refine (ex_intro _ (ANmonsDelete _) (conj _ eq_refl))
    | refine (ex_intro _ (ANodeStart _ _) (conj _ eq_refl))
    | refine (ex_intro _ (ANmapDelete _) (conj _ eq_refl))
    | refine (ex_intro _ (ANmapClear) (conj _ eq_refl))
    | refine (ex_intro _ (ANregsDelete _) (conj _ eq_refl))
    | refine (ex_intro _ (ANregsClear) (conj _ eq_refl))
    | refine (ex_intro _ (APendDelete _) (conj _ eq_refl))
    | refine (ex_intro _ (APendClear) (conj _ eq_refl))
    | refine (ex_intro _ (ADisconnect _ _) (conj _ eq_refl))
    | refine (ex_intro _ (AAccept _ _ _ _) (conj _ eq_refl))
    | refine (ex_intro _ (AWorkers _ _ _) (conj _ eq_refl))
    | refine (ex_intro _ (ASupDown _ _) (conj _ eq_refl)) ].

  Ltac lsolve := cbn; try exact I; repeat split; eauto 6.
  Ltac lgs := repeat first
    [ exact I
    | apply guar_ret | apply guar_panic
    | apply guar_observe; intros; solve [lab; lsolve]
    | apply guar_modify; intros; solve [lab; lsolve]
    | apply guar_atom; intros; cbn [fst]; solve [lab; lsolve]
    | apply guar_each; intros
    | apply guar_bind; [|intros]
    | match goal with |- guar _ (match ?x with _ => _ end) => destruct x eqn:? end
    | match goal with |- guar _ (if ?x then _ else _) => destruct x eqn:? end ].

  (** No frame with a message is sent. *)
  Definition control (a : act) : Prop := match a with ASendFrame (FSend _ _) _ => False | _ => True end.
  Lemma c_monitor_install me d r : guar (lstep control) (monitor_install me d r).
  Proof.
    unfold monitor_install, monitor_local, monitor_remote, self_down, own_monitor, own, name_lookup, alias_destroy, alias_destroy_op, node_register.
    lgs.
  Qed.
  Lemma c_finish me : guar (lstep control) (drop_process me).
  Proof.
    unfold drop_process, link_process_down, monitor_process_down, monitor_destroy_all, alias_destroy_all, alias_destroy, alias_destroy_op. lgs.
  Qed.
  Lemma c_call c : match c with CSend _ _ | CFire _ => False | _ => True end -> guar (lstep control) (call_prog S c).
  Proof.
    intros Hc.
    assert ((forall a, fp S c a -> control a) -> guar (lstep control) (call_prog S c)) as Hfp.
    { intros H. eapply guar_mono; [apply lstep_mono, H|apply call_fp]. }
    destruct c; try contradiction; try (apply Hfp; clear Hfp; intros a Ha; destruct a as [| | | | | | | | | | | | |[]| | | | | | | | | | | | | | | | | | | | | | | | | | | | | | | | | | | | | | | | |]; cbn in Ha |- *; done);
      clear Hfp Hc; cbn [call_prog]; unfold ret_as; (apply guar_bind; [|intros; exact I]).
    - unfold link, link_install, link_create, node_register. lgs.
    - unfold unlink, link_destroy. lgs.
    - unfold monitor, fresh_ref. lgs. apply c_monitor_install.
    - unfold monitor_alias, fresh_ref. lgs. apply c_monitor_install.
    - unfold demonitor, take_monitor, monitor_destroy, alias_destroy, alias_destroy_op. lgs.
    - unfold exit. lgs.
    - apply c_finish.
    - unfold crash. apply guar_bind; [lgs|]. intros _. apply c_finish.
    - unfold forget, node_forget, exit. lgs.
    - unfold receive_frame, forward_send, deliver, alias_retrieve, on_monitor, on_link, name_lookup, node_process_monitor_down,
        node_process_link_down, link_create, link_destroy, monitor_destroy, alias_destroy, alias_destroy_op, node_register. lgs.
  Qed.
End frames.

Lemma guar_and {W R} (G1 G2 : W -> W -> Prop) (p : prog W R) : guar G1 p -> guar G2 p -> guar (fun w w' => G1 w w' /\ G2 w w') p.
Proof.
  induction p as [a|m|g f k IH]; cbn; auto. intros H1 H2 w Hg. destruct (H1 w Hg), (H2 w Hg). auto.
Qed.

Section out.
  Context (S : serde) (Hty : serde_typed S) (T : N) (Hf : told_apart S T) (snd : N).
  Notation P := (fun v : value => v_type v <> T).
  Definition silent (f : frame) : Prop := match f with FSend _ b => de S T b = None | _ => True end.
  Definition quiet_pend (w : world) : Prop := forall nd fs, w_pend w !! nd = Some fs -> Forall silent fs.
  Definition spoken (w : world) : list frame := carrying S T (default [] (w_out w !! snd)).
  Lemma carrying_app fs gs : carrying S T (fs ++ gs) = carrying S T fs ++ carrying S T gs.
  Proof. apply list.filter_app. Qed.
  Lemma carrying_silent fs : Forall silent fs -> carrying S T fs = [].
  Proof.
    unfold carrying. induction 1 as [|f fs Hx _ IH]; [done|]. rewrite filter_cons_False; [done|].
    destruct f; cbn in Hx |- *; try done. rewrite Hx. rewrite bool_decide_false; [done|]. by intros [? ?].
  Qed.
  Lemma hand_out_spoken s fs w : Forall silent fs -> spoken (hand_out s fs w) = spoken w.
  Proof.
    intros Hs. unfold hand_out. destruct (w_regs w !! pid_id s); [|done]. unfold spoken. cbn -[carrying].
    destruct (decide (pid_id s = snd)) as [<-|Hne]; [|by rewrite lookup_insert_ne]. rewrite lookup_insert. cbn -[carrying].
    by rewrite carrying_app, (carrying_silent fs Hs), app_nil_r.
  Qed.
  Lemma quiet_app w nd f : quiet_pend w -> silent f -> quiet_pend (up_pend (fun m => <[nd := default [] (m !! nd) ++ [f]]> m) w).
  Proof.
    intros Hq Hs nd' fs. cbn. destruct (decide (nd = nd')) as [<-|Hne]; [|rewrite lookup_insert_ne by done; apply Hq].
    rewrite lookup_insert. intros [= <-]. apply Forall_app. split; [|by repeat constructor].
    destruct (w_pend w !! nd) as [gs|] eqn:E; [by apply (Hq nd)|constructor].
  Qed.
  Lemma quiet_delete w nd : quiet_pend w -> quiet_pend (up_pend (delete nd) w).
  Proof. intros Hq nd' fs. cbn. intros [_ H]%lookup_delete_Some. by apply (Hq nd'). Qed.
  Definition hushed (a : act) : Prop := match a with ASendFrame f _ => silent f | _ => True end.
  Lemma exit_out p f y w : w_out (exit_op p f y w) = w_out w /\ w_pend (exit_op p f y w) = w_pend w.
  Proof. unfold exit_op, push. repeat case_match; split; reflexivity. Qed.
  Lemma does_out a w : hushed a -> quiet_pend w -> quiet_pend (does S a w) /\ spoken (does S a w) = spoken w.
  Proof.
    intros Ha Hw.
    assert (forall w', w_out w' = w_out w -> w_pend w' = w_pend w -> quiet_pend w' /\ spoken w' = spoken w) as Hs.
    { intros w' E1 E2. unfold quiet_pend, spoken. by rewrite E1, E2. }
    destruct a; cbn [does hushed] in *; try (by apply Hs); try (apply Hs; apply exit_out).
    - unfold receive_op. destruct (w_loc w !! me) as [l|]; [|by apply Hs]. destruct (select S T0 f b l). by apply Hs.
    - unfold alias_take_op. repeat case_match; by apply Hs.
    - unfold push. case_match; by apply Hs.
    - unfold send_to, push. repeat case_match; by apply Hs.
    - unfold node_register_op, spawn_op. repeat case_match; simplify_eq; by apply Hs.
    - unfold send_frame. destruct (w_nregs w !! i) as [r|]; [|by apply Hs]. destruct (n_sender r) as [s|].
      + split; [|apply hand_out_spoken; by repeat constructor]. unfold hand_out. case_match; done.
      + destruct (n_state r); try (by apply Hs); (split; [by apply quiet_app|done]).
    - unfold register_op. repeat case_match; by apply Hs.
    - unfold exit_linked_op, push. repeat case_match; by apply Hs.
    - unfold node_start_op, spawn_op. repeat case_match; simplify_eq; by apply Hs.
    - split; [by apply quiet_delete|done].
    - split; [|done]. intros nd fs. cbn. by rewrite lookup_empty.
    - unfold node_disconnect_op. destruct (w_nmap w !! n); [|by apply Hs]. destruct (w_nregs w !! _); [|by apply Hs].
      destruct (n_sup _) as [p'|]; [|split; [by apply (quiet_delete w n)|done]].
      destruct (exit_out p' p RKill (up_pend (delete n) w)) as [E1 E2].
      unfold quiet_pend, spoken. cbn [w_out w_pend up_nregs]. rewrite E1, E2. split; [by apply (quiet_delete w n)|done].
    - unfold node_accept_op. case_match; [|by apply Hs]. case_match; [|by apply Hs].
      match goal with |- context [if bool_decide _ then ?x else w] => set (w1 := if bool_decide (n_state n1 = Pending) then x else w) end.
      assert (w_out w1 = w_out w /\ w_pend w1 = w_pend w) as [H1 H2]. { unfold w1. repeat case_match; try done. apply exit_out. }
      clearbody w1. case_match; by apply Hs.
    - unfold node_workers_op. destruct (w_nmap w !! n) as [i|]; [|by apply Hs]. destruct (w_nregs w !! i) as [r|]; [|by apply Hs].
      set (w1 := up_pend _ _). assert (Forall silent (default [] (w_pend w !! n))) as Hsil.
      { destruct (w_pend w !! n) as [fs|] eqn:E; [by apply (Hw n)|constructor]. }
      rewrite (hand_out_spoken p0) || rewrite (hand_out_spoken p); [|done].
      split; [|done]. unfold hand_out. case_match; unfold w1; by apply (quiet_delete w n).
    - unfold sup_down_op. repeat case_match; by apply Hs.
  Qed.
  Definition hush (w : world) : Prop := quiet_tasks T w /\ quiet_pend w.
  Lemma ser_silent ts v : v_type v <> T -> silent (FSend ts (ser S v)).
  Proof. intros Hv. cbn. by rewrite Hf. Qed.
  Lemma does_hush a w : decent S P a -> hushed a -> hush w -> hush (does S a w) /\ spoken (does S a w) = spoken w.
  Proof. intros Ha Hh [H1 H2]. destruct (does_out a w Hh H2) as [H3 H4]. split; [|done]. split; [by apply (does_tasks S T)|done]. Qed.
  Lemma send_hushed ds v a : v_type v <> T -> fp_send S ds v a -> decent S P a /\ hushed a.
  Proof.
    intros Hv Ha. split; [eapply (send_decent S P); [apply (apart_keeps S Hty T Hf)|exact Hv|exact Ha]|].
    destruct a; cbn in *; try done. destruct Ha as [ts ->]. by apply ser_silent.
  Qed.
  Lemma out_upon c : other_types S T c -> upon hush spoken (fun _ => True) (call_prog S c).
  Proof.
    intros Hc.
    assert (forall A (F : act -> Prop) (p : prog world A), (forall a, F a -> decent S P a /\ hushed a) -> guar (lstep S F) p -> upon hush spoken (fun _ => True) p) as Hu.
    { intros A F p HF. apply upon_guar. intros w w' (a & Ha & ->) Hw. destruct (HF a Ha). by apply does_hush. }
    assert ((exists i, c = CFire i) \/ (exists ds v, c = CSend ds v) \/ match c with CSend _ _ | CFire _ => False | _ => True end) as [[id ->]|[(ds & v & ->)|Hn]]
      by (destruct c; eauto).
    - cbn [call_prog]. unfold ret_as. eapply (upon_bind _ _ (fun _ => True)); [|done]. unfold timer_fire.
      eapply (upon_bind _ _ (fun t : option task => match t with Some t => P (t_val t) | None => True end)).
      { intros w Hw Hg. destruct (does_hush (ATaskKill id) w I I Hw) as [H1 H2]. split; [exact H1|]. split; [exact H2|].
        cbn. destruct (w_tasks w !! id) as [t|] eqn:E; [|done]. by apply (proj1 Hw id). }
      intros [t|] Ht; [|exact I]. eapply (upon_bind _ _ (fun _ => True)).
      + eapply Hu; [|apply l_send]. intros a Ha. by eapply send_hushed.
      + intros u _. eapply Hu; [|apply (l_destroy_timer S)]. intros a Ha. destruct a; cbn in *; done.
    - eapply Hu; [|apply call_fp]. intros a Ha. by eapply send_hushed.
    - eapply (upon_guar hush spoken); [|apply (guar_and (lstep S (fp S c)) (lstep S control)); [apply call_fp|by apply c_call]].
      intros w w' [(a & Ha & ->) (b & Hb & Eb)] [Hw1 Hw2]. split; [split|].
      + apply (does_tasks S T); [|done]. eapply (call_decent S T c); [apply (apart_keeps S Hty T Hf)|done| |exact Ha]. by destruct c.
      + rewrite Eb. apply does_out; [|done]. destruct b; cbn in *; try done. by destruct f.
      + rewrite Eb. apply does_out; [|done]. destruct b; cbn in *; try done. by destruct f.
  Qed.
End out.

Lemma upon_post {W M R} (I1 I2 : W -> Prop) (meas : W -> M) (Q1 Q2 : R -> Prop) (p : prog W R) :
  upon I1 meas Q1 p -> post I2 Q2 p -> upon (fun w => I1 w /\ I2 w) meas (fun r => Q1 r /\ Q2 r) p.
Proof.
  induction p as [a|m|g f k IH]; cbn; auto. intros H1 H2 w [Hw1 Hw2] Hg. destruct (H1 w Hw1 Hg) as (A & B & C). destruct (H2 w Hw2 Hg) as [D E]. auto 6.
Qed.
Lemma upon_weaken {W M R} (I : W -> Prop) (meas : W -> M) (Q Q' : R -> Prop) (p : prog W R) :
  (forall r, Q r -> Q' r) -> upon I meas Q p -> upon I meas Q' p.
Proof. intros HQ. induction p as [a|m|g f k IH]; cbn; auto. intros H1 w Hw Hg. destruct (H1 w Hw Hg) as (A & B & C). auto. Qed.

Section stream.
  Context (S : serde) (Hty : serde_typed S) (T : N) (Hf : told_apart S T).
  Context (nm : string) (ad : sockaddr) (id : N) (p : pid) (sender : N) (q : N).
  Definition quiet_call (c : call) : Prop := other_types S T c /\ leaves_record nm ad p Connected c.
  Notation rec := (on_record nm ad id p Connected (Some (PLocal sender)) []).
  Notation Inv := (fun w => hush S T w /\ rec w).
  Notation meas := (spoken S T sender).
  Lemma stream_upon c : quiet_call c -> upon Inv meas (fun _ => True) (call_prog S c).
  Proof.
    intros [H1 H2]. eapply (upon_weaken _ _ (fun _ => True /\ True)); [done|]. apply (upon_post (hush S T) rec).
    - by apply out_upon.
    - apply record_call; [by eexists|done].
  Qed.
  Local Instance back_dec v : Decision (comes_back S T v).
  Proof. unfold comes_back. apply _. Defined.
  (** A message for the process [q] of the node. *)
  Definition frame_for (c : call) : option frame :=
    match c with
    | CSend (DsOne (DPid (PRemote i n))) v => if decide (i = q /\ n = id /\ comes_back S T v) then Some (FSend [TPid q] (ser S v)) else None
    | _ => None
    end.
  Lemma frame_step c x : frame_for c = Some x -> exists f, call_prog S c = Atom (fun _ => true) f (fun _ => Ret VUnit) /\
    (forall w, Inv w -> Inv (f w)) /\ (forall w, Inv w -> is_Some (w_regs w !! sender) -> meas (f w) = meas w ++ [x]) /\
    (forall w, Inv w -> ~ is_Some (w_regs w !! sender) -> meas (f w) = meas w).
  Proof.
    destruct c; cbn [frame_for]; try done. destruct ds as [[[|i n]| |]|]; try done. case_decide as Hd; [|done]. destruct Hd as (-> & -> & Hv).
    intros [= <-]. exists (send_frame (FSend [TPid q] (ser S v)) id). split; [reflexivity|].
    assert (forall w, rec w -> send_frame (FSend [TPid q] (ser S v)) id w = hand_out (PLocal sender) [FSend [TPid q] (ser S v)] w) as Hsf.
    { intros w Hw. destruct (or_reg _ _ _ _ _ _ _ _ Hw) as (r & Er & R1 & R2 & R3 & _). unfold send_frame. by rewrite Er, R3. }
    assert (carrying S T [FSend [TPid q] (ser S v)] = [FSend [TPid q] (ser S v)]) as Hca.
    { unfold carrying. rewrite filter_cons_True; [done|]. unfold comes_back in Hv. rewrite Hv. by rewrite bool_decide_true by eauto. }
    split_and!.
    - intros w [[H1 H2] H3]. split.
      + rewrite (Hsf w H3). unfold hand_out. destruct (w_regs w !! _); split; done.
      + apply (steady_act S nm ad id p Connected (Some (PLocal sender)) [] ) with (a := ASendFrame (FSend [TPid q] (ser S v)) id); try done; by eexists.
    - intros w [_ Hw] [r Hr]. rewrite (Hsf w Hw). unfold hand_out. cbn [pid_id]. rewrite Hr. unfold spoken. cbn -[carrying].
      rewrite lookup_insert. cbn -[carrying]. by rewrite carrying_app, Hca.
    - intros w [_ Hw] Hr. rewrite (Hsf w Hw). unfold hand_out. cbn [pid_id]. destruct (w_regs w !! sender) eqn:E; [|done]. destruct Hr. eauto.
  Qed.
  Lemma in_turn_stream s cs s' : reachable S s -> is_Some (w_regs (s_world s) !! sender) ->
    calm Inv meas s -> Forall (fun c => is_Some (frame_for c)) cs -> in_turn S quiet_call s cs s' ->
    calm Inv meas s' /\
    (exists n, meas (s_world s') = meas (s_world s) ++ take n (omap frame_for cs)) /\
    (is_Some (w_regs (s_world s') !! sender) -> meas (s_world s') = meas (s_world s) ++ omap frame_for cs).
  Proof.
    intros Hr Ht Hc Hcs H.
    refine (match in_turn_gen S quiet_call Inv meas (fun w => is_Some (w_regs w !! sender)) frame_for stream_upon _ frame_step s _ s cs s' [] (evolves_refl S s []) Hc _ H
            with conj C (conj A (conj B _)) => conj C (conj A B) end).
    - intros w. destruct (w_regs w !! sender); [left; eauto|right]. by intros [? ?].
    - intros s1 own1 s2 own2 H1 H2 H3. rewrite <- eq_None_not_Some in H2 |- *. exact (gone_stays S s [] s1 own1 s2 own2 sender Hr eq_refl Ht H1 H2 H3).
    - eapply List.Forall_impl; [|exact Hcs]. intros c. cbn. by right.
  Qed.
End stream.
