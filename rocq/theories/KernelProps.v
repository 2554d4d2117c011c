(** C93-C95: the processes the crate itself runs. *)
From stdpp Require Import base list gmap numbers strings countable sorting relations.
From Coq Require Import Lia.
From Verif Require Import Prog ProgProofs ProgInv Types Mailbox MailboxSpec MailboxProofs World ProcApi NodeApi Api Steps Hist Labels Play
  SchedSpec SchedProps ProcSpec ProcProofs FreshProofs MonProofs ProcProps LifeProps GenServer GenServerSpec GenServerProps Loop Application AppSpec AppProps
  NetSpec ConnProps Path Kernel.

(** ** C93: the process of the local node. *)
(** The process a message asks for; messages that are none of the crate's business: a request, or the end of another process than the listener. *)
Definition requester (asker : value -> pid) (m : message) : option pid := match m with MUser v => Some (asker v) | MSystem _ => None end.
Definition harmless (listener : pid) (m : message) : Prop :=
  match m with MUser _ => True | MSystem (SExit p _) => p <> listener | MSystem _ => False end.
Global Instance harmless_dec listener m : Decision (harmless listener m).
Proof. destruct m as [|[]]; cbn; apply _. Defined.
Lemma local_turn_spec listener asker m :
  fst (local_turn listener asker m) = option_list (requester asker m) /\
  (harmless listener m -> snd (local_turn listener asker m) = LServing) /\
  (~ harmless listener m -> exists why, snd (local_turn listener asker m) = LCrashed why).
Proof.
  destruct m as [v|[p why|d r why|n r]]; cbn; split_and!; try tauto; eauto.
  - by destruct (decide (p = listener)).
  - intros H. by rewrite decide_False.
  - intros H. rewrite decide_True by (by apply dec_stable). eauto.
Qed.
Lemma loops_status S T listener asker l0 arr ms qs s l : loops S T (local_turn listener asker) l0 arr ms qs s l ->
  match s with
  | LServing => Forall (harmless listener) ms
  | LDone _ => False
  | LCrashed why => (exists before m, ms = before ++ [m] /\ Forall (harmless listener) before /\ ~ harmless listener m) \/
                    (why = "Unsupported message type!"%string /\ Forall (harmless listener) ms)
  end.
Proof.
  induction 1 as [|arr ms qs s l x H IH|arr ms qs l m l1 H IH Hr|arr ms qs l l1 H IH Hr|arr ms qs l l1 H IH Hr]; auto.
  destruct (local_turn_spec listener asker m) as (_ & A1 & A2). destruct (decide (harmless listener m)) as [Hm|Hm].
  - rewrite (A1 Hm). apply Forall_app. auto.
  - destruct (A2 Hm) as [why ->]. left. eauto.
Qed.
(** However messages arrive: the process deals with the oldest pending messages, in order, and sends the supervisor to exactly the
    processes that asked for it, in that order.  It has not ended as long as the messages it has dealt with were harmless;
    it ends on the first one that is not - the listener's end - or on one that is not of its type. *)
Theorem C93_requests_answered :
  forall S T listener asker l0 arrived handled answers s l, serde_typed S ->
    loops S T (local_turn listener asker) l0 arrived handled answers s l ->
    answers = omap (requester asker) handled /\
    exists done rest, mailbox (after_arrival arrived l0) = done ++ rest /\ map (read S T) done = map Some handled /\
    match s with
    | LServing => Forall (harmless listener) handled /\ mailbox l = rest
    | LDone x => False
    | LCrashed why =>
        (exists before m, handled = before ++ [m] /\ Forall (harmless listener) before /\ ~ harmless listener m) \/
        (Forall (harmless listener) handled /\ exists x rest', rest = x :: rest' /\ read S T x = None)
    end.
Proof.
  intros S T listener asker l0 arr ms qs s l Hty H. split.
  - induction H as [|arr ms qs s l x H IH|arr ms qs l m l1 H IH Hr|arr ms qs l l1 H IH Hr|arr ms qs l l1 H IH Hr]; auto.
    rewrite omap_app, IH, (proj1 (local_turn_spec listener asker m)). cbn. by destruct (requester asker m).
  - pose proof (loops_order S T _ Hty _ _ _ _ _ _ H) as (d & H1 & H2 & H3 & H4). destruct (H2 []) as [rest Hr]. rewrite arrive_nil in Hr.
    exists d, rest. split_and!; auto.
    pose proof (loops_status S T listener asker _ _ _ _ _ _ H) as Hs. destruct s as [|x|why]; [split; [exact Hs|]|exact Hs|].
    + specialize (H3 eq_refl []). rewrite !arrive_nil, Hr in H3. by apply app_inv_head in H3.
    + destruct Hs as [Hs|[Hw Hs]]; [by left|right]. split; [done|]. destruct (H4 why eq_refl) as [(_ & p & r1 & E1 & E2)|[x Hx]].
      * rewrite Hr in E1. apply app_inv_head in E1. by exists p, r1.
      * subst why. destruct x as [v|[p why|d' r why|n r]]; cbn in Hx; try discriminate. destruct (decide (p = listener)); discriminate.
Qed.
Print Assumptions C93_requests_answered.
(** As long as only harmless messages are pending, it deals with all of them and waits for more. *)
Theorem C93_goes_on :
  forall S T listener asker l0 arrived handled answers l, serde_typed S ->
    loops S T (local_turn listener asker) l0 arrived handled answers LServing l ->
    Forall (fun x => exists m, read S T x = Some m /\ harmless listener m) (mailbox l) ->
    exists ms l', map (read S T) (mailbox l) = map Some ms /\ mailbox l' = [] /\
      loops S T (local_turn listener asker) l0 arrived (handled ++ ms) (answers ++ omap (requester asker) ms) LServing l'.
Proof.
  intros S T listener asker l0 arr ms qs l Hty H. remember (mailbox l) as box eqn:Eb. revert ms qs l H Eb.
  induction box as [|x box IH]; intros ms qs l H Eb Hf.
  - exists [], l. split_and!; [done|done|]. by rewrite !app_nil_r.
  - apply Forall_cons in Hf as [(m & Hm & Hh) Hf].
    pose proof (loops_progress S T _ Hty _ _ _ _ _ _ _ H (eq_sym Eb)) as Hp. rewrite Hm in Hp. destruct Hp as (l1 & E1 & Hp).
    destruct (local_turn_spec listener asker m) as (A0 & A1 & _). rewrite (A1 Hh), A0 in Hp.
    destruct (IH _ _ _ Hp (eq_sym E1) Hf) as (ms2 & l2 & B1 & B2 & B3). exists (m :: ms2), l2. split_and!; [cbn; by rewrite Hm, B1|done|].
    rewrite <- !app_assoc in B3. cbn [omap list_omap]. destruct (requester asker m); exact B3.
Qed.
Print Assumptions C93_goes_on.
(** When the listener has ended, so has the node: once its exit is the oldest pending message that is not harmless, the process ends. *)
Theorem C93_ends_with_listener :
  forall S T listener asker l0 arrived handled answers l before why after, serde_typed S ->
    loops S T (local_turn listener asker) l0 arrived handled answers LServing l ->
    mailbox l = before ++ PSys (SExit listener why) :: after -> Forall (fun x => exists m, read S T x = Some m /\ harmless listener m) before ->
    exists ms qs l', loops S T (local_turn listener asker) l0 arrived ms qs (LCrashed "Lost the local node listener") l'.
Proof.
  intros S T listener asker l0 arr ms qs l before why after Hty H Eb Hf. revert ms qs l H Eb Hf.
  induction before as [|x before IH]; intros ms qs l H Eb Hf; pose proof (loops_progress S T _ Hty _ _ _ _ _ _ _ H Eb) as Hp.
  - cbn in Hp. destruct Hp as (l1 & _ & Hp). rewrite decide_True in Hp by done. eauto.
  - apply Forall_cons in Hf as [(m & Hm & Hh) Hf]. rewrite Hm in Hp. destruct Hp as (l1 & E1 & Hp).
    destruct (local_turn_spec listener asker m) as (_ & A1 & _). rewrite (A1 Hh) in Hp. by apply (IH _ _ _ Hp E1).
Qed.
Print Assumptions C93_ends_with_listener.
Example C93_example :
  exists l, loops S0 7 (local_turn (PLocal 2) (fun v => PLocal (v_data v))) new_plocal
    [IUserLocal (Val 7 5); ISystem (SExit (PLocal 9) RNormal); IUserLocal (Val 7 6)]
    [MUser (Val 7 5); MSystem (SExit (PLocal 9) RNormal); MUser (Val 7 6)] [PLocal 5; PLocal 6] LServing l.
Proof.
  set (turn := local_turn (PLocal 2) (fun v => PLocal (v_data v))).
  assert (loops S0 7 turn new_plocal [] [] [] LServing new_plocal) as H0 by constructor.
  apply (loops_arrivals S0 7 turn [IUserLocal (Val 7 5); ISystem (SExit (PLocal 9) RNormal); IUserLocal (Val 7 6)]) in H0.
  eapply C93_goes_on in H0; [|apply S0_typed|].
  - destruct H0 as (ms & l & E & _ & H). vm_compute in E. destruct ms as [|m1 [|m2 [|m3 [|]]]]; try discriminate. injection E as <- <- <-. exists l. exact H.
  - vm_compute. repeat constructor; eexists; (split; [reflexivity|]); done.
Qed.
(** "Nothing but the end of the listener ends the process of the node" is false: a message of any other type does - also one
    from another node, whose bytes nobody has looked at. *)
Definition C93_statement : Prop :=
  forall S T listener asker arrived handled answers s l, serde_typed S ->
    loops S T (local_turn listener asker) new_plocal arrived handled answers s l ->
    (forall why, ISystem (SExit listener why) ∉ arrived) -> s = LServing.
Theorem C93_refuted : ~ C93_statement.
Proof.
  intros H. set (turn := local_turn (PLocal 2) (fun v => PLocal (v_data v))).
  assert (loops S0 7 turn new_plocal [] [] [] LServing new_plocal) as H0 by constructor.
  apply (loops_arrivals S0 7 turn [IUserRemote []]) in H0.
  pose proof (loops_progress S0 7 turn S0_typed _ _ _ _ _ (PBytes []) [] H0 eq_refl) as Hp. cbn in Hp. destruct Hp as (l1 & H1).
  specialize (H S0 7%N (PLocal 2) (fun v => PLocal (v_data v)) _ _ _ _ _ S0_typed H1).
  enough (LCrashed "Unsupported message type!" = @LServing Empty_set) by discriminate. apply H.
  intros why Hin. apply elem_of_list_singleton in Hin. discriminate.
Qed.
Print Assumptions C93_refuted.
(** What that does to the node.  Process 1 runs the local node, 2 is its listener, 3 serves the connection to node "b", which sends
    process 1 some bytes: 1 panics, 2 is taken along, the node's record is dropped (Drop for NodeLocalSupervisor), and the
    connection is forgotten. *)
Example C93_frame_takes_the_node_down :
  exists w, seq_reachable S0 w /\
    (match run (call_prog S0 CNodeAlive) w with Done _ v => v = VBool true | _ => False end) /\
    match run (call_prog S0 (CFrame (NRemote "b" (SA4 2 5)) (PLocal 3) (FSend [TPid 1] []))) w with
    | Done w1 _ =>
        match w_loc w1 !! 1%N with Some l => fst (receive S0 7 true l) = TypePanic | None => False end /\
        match play S0 [CCrash 1 (RCustom "Unsupported message type!"); CFinish 2; CLocalPanic] w1 with
        | Some w2 => (match run (call_prog S0 CNodeAlive) w2 with Done _ v => v = VBool false | _ => False end) /\
            match run (call_prog S0 CNodeList) w2 with Done _ v => v = VNodes [] | _ => False end
        | None => False end
    | _ => False end.
Proof.
  apply (play_some S0 (fun w => _ /\ _) [CNodeStart "a" (SA4 1 5); CSetFlags 1 true; CSpawn 1 true false; CConnect (NRemote "b" (SA4 2 5)); CSupervise 3 "b" (SA4 2 5)]).
  vm_compute. auto 10.
Qed.
(** The listener: one process for every connection accepted, however many accepts fail in between. *)
Theorem C93_listener : forall bound accepts n,
  listener_run bound accepts = Some n <-> bound = true /\ n = count_occ Bool.bool_dec accepts true.
Proof.
  intros [] accepts n; unfold listener_run; [|split; [done|by intros [? _]]].
  assert (E : length (filter (fun b => b = true) accepts) = count_occ Bool.bool_dec accepts true).
  { induction accepts as [|[] l IH]; [done| |]; cbn [count_occ].
    - rewrite filter_cons_True by done. cbn [length]. rewrite IH. by destruct (Bool.bool_dec true true).
    - rewrite filter_cons_False by done. rewrite IH. by destruct (Bool.bool_dec false true). }
  rewrite E. split; [intros [= <-]; done | by intros [_ ->]].
Qed.
Print Assumptions C93_listener.
Example C93_listener_example : listener_run true [true; false; true] = Some 2 /\ listener_run false [true] = None.
Proof. done. Qed.
(** Node::start has nothing to say about the address: when the listener cannot be bound, the node that was started goes down again. *)
Example C93_start_reports_nothing :
  exists w, seq_reachable S0 w /\ listener_run false [] = None /\
    (match run (call_prog S0 CNodeAlive) w with Done _ v => v = VBool true | _ => False end) /\
    match play S0 [CCrash 2 (RCustom "Failed to bind socket for local node listener!")] w with
    | Some w1 => match w_loc w1 !! 1%N with
                 | Some l => fst (receive S0 7 true l) = Found (MSystem (SExit (PLocal 2) (RCustom "Failed to bind socket for local node listener!")))
                 | None => False end
    | None => False end.
Proof.
  apply (play_some S0 (fun w => _ /\ _) [CNodeStart "a" (SA4 1 5); CSetFlags 1 true; CSpawn 1 true false]). vm_compute. auto.
Qed.

(** ** C94: the console server. *)
(** An answer to request [m] by the console server [me] that is true, [seen] being the states of the node it may be about. *)
Definition told_of (seen : world -> Prop) (p : pid) (o : option info_t) : Prop :=
  match p, o with
  | PLocal i, None => exists w, seen w /\ w_regs w !! i = None
  | PLocal i, Some x =>
      (exists w r, seen w /\ w_regs w !! i = Some r /\ i_name x = r_name r /\ i_trap x = r_trap r /\
                   i_len x = match w_loc w !! i with Some l => length (l_chan l) | None => 0 end) /\
      (exists w, seen w /\ NoDup (i_links x) /\ forall q, q ∈ i_links x <-> q ∈ default ∅ (w_links w !! i)) /\
      (exists w, seen w /\ i_monitored_by x ≡ₚ map (fun y => fst (snd y)) (map_to_list (default ∅ (w_mons w !! i))))
  | PRemote _ _, _ => False
  end.
Definition true_answer (seen : world -> Prop) (me : pid) (m x : cmsg) : Prop :=
  match m, x with
  | QConnect, AConnected p => p = me
  | QNodes st, ANodes l => exists w, seen w /\
      forall nd, nd ∈ l <-> exists id r, w_nregs w !! id = Some r /\ n_state r = st /\ nd = NRemote (n_name r) (n_addr r)
  | QProcesses, AProcesses l => exists w, seen w /\ NoDup l /\ forall p, p ∈ l <-> exists i, p = PLocal i /\ is_Some (w_regs w !! i)
  | QInfo ps, AInfo l => Forall2 (told_of seen) ps l
  | QRuntime, ARuntime n => exists w, seen w /\ n = size (w_regs w)
  | _, _ => False
  end.
(** The requests of console.rs; those about processes of the server's own node. *)
Definition request (m : cmsg) : Prop :=
  match m with QConnect | QNodes _ | QProcesses | QInfo _ | QRuntime => True | _ => False end.
Definition local_request (m : cmsg) : Prop :=
  request m /\ match m with QInfo ps => Forall (fun p => exists i, p = PLocal i) ps | _ => True end.
(** A program that only reads, never fails, and from [seen] states makes a result in [Q]. *)
Fixpoint gives {R} (seen : world -> Prop) (Q : R -> Prop) (p : prog world R) : Prop :=
  match p with
  | Ret r => Q r
  | Panic _ => False
  | Atom g f k => forall w, seen w -> g w = true /\ f w = w /\ gives seen Q (k w)
  end.
Lemma gives_bind {A B} (seen : world -> Prop) (Q : A -> Prop) (Q' : B -> Prop) (p : prog world A) (q : A -> prog world B) :
  gives seen Q p -> (forall a, Q a -> gives seen Q' (q a)) -> gives seen Q' (bind p q).
Proof.
  intros Hp Hq. induction p as [a|m|g f k IH]; cbn in *; [by apply Hq|done|].
  intros w Hw. destruct (Hp w Hw) as (A1 & A2 & A3). eauto.
Qed.
Lemma gives_observe {A} (seen : world -> Prop) (Q : A -> Prop) (f : world -> A) : (forall w, seen w -> Q (f w)) -> gives seen Q (observe f).
Proof. intros H w Hw. cbn. auto. Qed.
Lemma gives_run {A} (Q : A -> Prop) (p : prog world A) w : gives (eq w) Q p -> exists a, run p w = Done w a /\ Q a.
Proof.
  induction p as [a|m|g f k IH]; cbn; [eauto|done|]. intros H. destruct (H w eq_refl) as (H1 & H2 & H3). rewrite H1, H2. by apply IH.
Qed.
Lemma gives_info (seen : world -> Prop) i : gives seen (told_of seen (PLocal i)) (info (PLocal i)).
Proof.
  unfold info. eapply (gives_bind _ (fun o => match o with
    | None => exists w, seen w /\ w_regs w !! i = None
    | Some (r, n) => exists w, seen w /\ w_regs w !! i = Some r /\ n = match w_loc w !! i with Some l => length (l_chan l) | None => 0 end end)).
  - apply gives_observe. intros w Hw. destruct (w_regs w !! i) as [r|] eqn:E; eauto.
  - intros [[r n]|] Hr; [|exact Hr]. destruct Hr as (w & Hw & Hr & Hn).
    eapply (gives_bind _ (fun ls => exists w, seen w /\ NoDup ls /\ forall q, q ∈ ls <-> q ∈ default ∅ (w_links w !! i))).
    + apply gives_observe. intros w1 Hw1. exists w1. split; [done|]. destruct (w_links w1 !! i) as [s|]; cbn.
      * unfold sorted_pids. rewrite merge_sort_Permutation. split; [apply NoDup_elements|]. intros q. rewrite merge_sort_Permutation. apply elem_of_elements.
      * split; [constructor|set_solver].
    + intros ls Hls.
      eapply (gives_bind _ (fun ms => exists w, seen w /\ ms ≡ₚ map (fun y => fst (snd y)) (map_to_list (default ∅ (w_mons w !! i))))).
      * apply gives_observe. intros w1 Hw1. exists w1. split; [done|]. destruct (w_mons w1 !! i) as [s|]; cbn; [|by rewrite map_to_list_empty].
        unfold sorted_refs. by rewrite merge_sort_Permutation.
      * intros ms Hms. cbn. split_and!; [exists w, r; auto|exact Hls|exact Hms].
Qed.
Lemma gives_infos (seen : world -> Prop) ps : Forall (fun p => exists i, p = PLocal i) ps -> gives seen (Forall2 (told_of seen) ps) (infos ps).
Proof.
  induction 1 as [|p ps [i ->] H IH]; [constructor|]. cbn [infos].
  eapply gives_bind; [apply gives_info|]. intros o Ho. eapply gives_bind; [exact IH|]. intros l Hl. by constructor.
Qed.
Lemma gives_console (seen : world -> Prop) me m : local_request m -> gives seen (fun o => exists x, o = Some x /\ true_answer seen me m x) (console_call me m).
Proof.
  intros [Hr Hl]. destruct m; try done; cbn [console_call].
  - eexists. split; reflexivity.
  - eapply (gives_bind _ (fun l => exists w, seen w /\ forall nd, nd ∈ l <-> exists id r, w_nregs w !! id = Some r /\ n_state r = st /\ nd = NRemote (n_name r) (n_addr r))).
    + apply gives_observe. intros w Hw. exists w. split; [done|]. intros nd. split.
      * intros H. apply elem_of_list_In, in_map_iff in H as ([id r] & <- & H). apply elem_of_list_In, elem_of_list_filter in H as [H1 H2].
        apply elem_of_map_to_list in H2. eauto.
      * intros (id & r & H1 & H2 & ->). apply elem_of_list_In, in_map_iff. exists (id, r). split; [done|]. apply elem_of_list_In, elem_of_list_filter.
        split; [done|]. by apply elem_of_map_to_list.
    + intros l Hl'. eexists. split; [reflexivity|exact Hl'].
  - eapply (gives_bind _ (fun l => exists w, seen w /\ NoDup l /\ forall p, p ∈ l <-> exists i, p = PLocal i /\ is_Some (w_regs w !! i))).
    + apply gives_observe. intros w Hw. exists w. split_and!; [done| |].
      * rewrite <- (map_map fst PLocal).
        apply NoDup_fmap_2; [by intros ?? [= ->]|]. apply NoDup_fst_map_to_list.
      * intros p. split.
        -- intros H. apply elem_of_list_In, in_map_iff in H as ([i r] & <- & H). apply elem_of_list_In, elem_of_map_to_list in H. exists i. rewrite H. eauto.
        -- intros (i & -> & r & H). apply elem_of_list_In, in_map_iff. exists (i, r). split; [done|]. by apply elem_of_list_In, elem_of_map_to_list.
    + intros l Hl'. eexists. split; [reflexivity|exact Hl'].
  - eapply gives_bind; [by apply gives_infos|]. intros l Hl'. eexists. split; [reflexivity|exact Hl'].
  - eapply (gives_bind _ (fun n => exists w, seen w /\ n = size (w_regs w))); [apply gives_observe; eauto|]. intros n Hn. eexists. split; [reflexivity|exact Hn].
Qed.
(** A request about the server's own node is answered with the truth, and changes nothing. *)
Theorem C94_answers :
  forall me m w, local_request m -> exists x, run (console_call me m) w = Done w (Some x) /\ true_answer (eq w) me m x.
Proof.
  intros me m w Hm. destruct (gives_run _ _ w (gives_console (eq w) me m Hm)) as (o & H1 & x & -> & H2). eauto.
Qed.
Print Assumptions C94_answers.
(** Whatever other calls run at the same time: the handler does not fail, and what it answers was the case while it was at work
    (of a process: its entry, its links and its monitors each at some moment). *)
Definition beside (S : serde) (p : prog world (option cmsg)) : Prop := exists c, p = bind (call_prog S c) (fun _ => Ret None).
Theorem C94_in_every_schedule :
  forall S me m w ts ss s p, local_request m ->
    run_of (beside S) (Sys w (console_call me m :: ts)) ss -> list.last ss = Some s -> s_threads s !! 0 = Some p ->
    (forall why, p <> Panic why) /\ (forall g f k, p = Atom g f k -> g (s_world s) = true) /\
    forall r, p = Ret r -> exists x, r = Some x /\ true_answer (fun w' => exists s', s' ∈ ss /\ w' = s_world s') me m x.
Proof.
  intros S me m w ts ss s p Hm [H0 H1] Hl Hp. set (seen := fun w' => exists s', s' ∈ ss /\ w' = s_world s').
  assert (forall n s, ss !! n = Some s -> exists p, s_threads s !! 0 = Some p /\ gives seen (fun o => exists x, o = Some x /\ true_answer seen me m x) p) as Hinv.
  { intros n. induction n as [|n IH]; intros s1 Hs.
    - rewrite H0 in Hs. injection Hs as <-. eexists. split; [reflexivity|]. by apply gives_console.
    - destruct (ss !! n) as [s0|] eqn:E; [|exfalso; apply lookup_ge_None_1 in E; apply lookup_lt_Some in Hs; lia].
      destruct (IH s0 eq_refl) as (p0 & B1 & B2). pose proof (H1 n s0 s1 E Hs) as Hstep. inversion Hstep as [i a b Ht|q a Hq]; subst.
      + unfold tick in Ht. destruct (s_threads s0 !! i) as [[| |g f k]|] eqn:Et; try discriminate. destruct (g (s_world s0)) eqn:Hg; [|discriminate].
        injection Ht as <-. cbn. destruct i as [|i].
        * rewrite Et in B1. injection B1 as <-. exists (k (s_world s0)). split; [apply list_lookup_insert; by apply lookup_lt_Some in Et|].
          destruct (B2 (s_world s0)) as (_ & _ & B3); [|exact B3]. exists s0. split; [by apply elem_of_list_lookup_2 in E|done].
        * exists p0. rewrite list_lookup_insert_ne by done. auto.
      + exists p0. cbn. rewrite lookup_app_l; [auto|]. by apply lookup_lt_Some in B1. }
  rewrite last_lookup in Hl. destruct (Hinv _ _ Hl) as (p' & B1 & B2). rewrite Hp in B1. injection B1 as <-.
  assert (seen (s_world s)) as Hs by (exists s; split; [by apply elem_of_list_lookup_2 in Hl|done]).
  split_and!.
  - intros why ->. exact B2.
  - intros g f k ->. by apply (B2 (s_world s)).
  - intros r ->. exact B2.
Qed.
Print Assumptions C94_in_every_schedule.
(** So the functions of ConsoleServer never meet an answer of the wrong kind. *)
Theorem C94_answers_fit :
  forall seen me m x, true_answer seen me m x ->
    match m with
    | QConnect => is_Some (take_pid x) | QNodes _ => is_Some (take_nodes x) | QProcesses => is_Some (take_processes x)
    | QInfo _ => is_Some (take_info x) | QRuntime => is_Some (take_runtime x) | _ => False end.
Proof. intros seen me m x H. destruct m, x; cbn in *; try done; eauto. Qed.
Print Assumptions C94_answers_fit.
(** The server: as long as it is only called, with requests about its own node, every call gets its answer, in order - and nothing
    but a message of another type, a stop request or the end of its parent ends it. *)
Definition call_in (G : gtype cmsg) (m : message) : option (from * cmsg) :=
  match gview G m with inl (GCall f q) => Some (f, q) | _ => None end.
Definition no_cast (G : gtype cmsg) (m : message) : Prop :=
  match gview G m with inl (GCast _) => False | inl (GCall _ q) => local_request q | _ => True end.
Theorem C94_every_call_answered :
  forall S G me obs parent own l0 arrived handled events s l,
    serves S G (console_server me obs) parent own 0 l0 arrived handled events s l -> Forall (no_cast G) handled ->
    length (omap replied events) = length (omap (call_in G) handled) /\
    (forall n f q, omap (call_in G) handled !! n = Some (f, q) ->
       exists x, omap replied events !! n = Some (f, x) /\ true_answer (eq (obs n)) me q x) /\
    match s with
    | Serving _ => True
    | Exited r => exists m, list.last handled = Some m /\ stop_reason parent (gview G m) = Some r
    | Crashed why => why = "Unsupported message type!"%string
    end.
Proof.
  intros S G me obs parent own l0 arr ms es s l H Hf.
  enough (length (omap replied es) = length (omap (call_in G) ms) /\
    (forall n f q, omap (call_in G) ms !! n = Some (f, q) ->
       exists x, omap replied es !! n = Some (f, x) /\ true_answer (eq (obs n)) me q x) /\
    match s with
    | Serving st => st = length (omap (call_in G) ms)
    | Exited r => exists m, list.last ms = Some m /\ stop_reason parent (gview G m) = Some r
    | Crashed why => why = "Unsupported message type!"%string
    end) as (A1 & A2 & A3) by (split_and!; auto; by destruct s).
  induction H as [|arr ms es s l x H IH|arr ms es st l m l1 l2 H IH Hr Ho|arr ms es st l l1 H IH Hr|arr ms es st l l1 H IH Hr]; auto.
  - cbn. split_and!; auto. intros n f q E. by rewrite lookup_nil in E.
  - apply Forall_app in Hf as [Hf Hm]. inversion Hm as [|? ? Hm' _]; subst. destruct (IH Hf) as (A1 & A2 & A3). subst st.
    rewrite !omap_app. change (omap (call_in G) [m]) with (match call_in G m with Some y => [y] | None => [] end).
    remember (call_in G m) as o eqn:Eo. unfold call_in in Eo. unfold no_cast in Hm'. unfold turn.
    destruct (gview G m) as [[q|f q|r q|why]|[p why|d r why|nd r]] eqn:Eg; subst o; cbn [console_server handle_call handle_info handle_cast terminate after finish fst snd omap list_omap replied]; try done.
    + destruct (C94_answers me q (obs (length (omap (call_in G) ms))) Hm') as (x & Hx & Htx). rewrite Hx. cbn. split_and!.
      * rewrite !app_length. cbn. lia.
      * intros n f' q' Hn. destruct (decide (n = length (omap (call_in G) ms))) as [->|Hne].
        -- rewrite lookup_app_r, Nat.sub_diag in Hn by lia. injection Hn as -> ->. exists x. rewrite lookup_app_r by lia. rewrite A1, Nat.sub_diag. auto.
        -- assert (n < length (omap (call_in G) ms)) by (apply lookup_lt_Some in Hn; rewrite app_length in Hn; cbn in Hn; lia).
           rewrite lookup_app_l in Hn by done. destruct (A2 _ _ _ Hn) as (x' & B1 & B2). exists x'. rewrite lookup_app_l by lia. auto.
      * rewrite app_length. cbn. lia.
    + rewrite !app_nil_r. auto.
    + rewrite !app_nil_r. split_and!; auto. exists m. rewrite last_snoc. rewrite Eg. auto.
    + destruct (decide (p = parent)) as [->|Hne]; cbn; rewrite !app_nil_r; split_and!; auto.
      exists m. rewrite last_snoc, Eg. cbn. rewrite decide_True; auto.
    + rewrite !app_nil_r. auto.
    + rewrite !app_nil_r. auto.
  - destruct (IH Hf) as (A1 & A2 & _). auto.
Qed.
Print Assumptions C94_every_call_answered.
Lemma console_turn me obs parent n f q x : match run (console_call me q) (obs n) with Done _ r => r = Some x | _ => False end ->
  turn (console_server me obs) parent n (inl (GCall f q)) = ([ECall q f (ROk (Some x)); EReply f x], Serving (Datatypes.S n)).
Proof. intros H. cbn. destruct (run _ _) as [w r| |]; try done. by subst r. Qed.
Ltac take1 H := let H' := fresh in pose proof (serves_turn _ _ _ _ eq _ _ _ _ _ _ _ _ _ _ H eq_refl eq_refl) as H'; clear H; rename H' into H.
Definition console_type : gtype cmsg :=
  GType 7 (fun _ => Val 7 0)
    (fun v => match v_data v with
              | 0 => GCall (From (PLocal 9) (RLocal 5) false) QProcesses
              | 1 => GCall (From (PLocal 8) (RLocal 6) false) (QInfo [PLocal 1; PLocal 77])
              | 2 => GCall (From (PLocal 7) (RLocal 7) false) (QInfo [PRemote 2 1])
              | _ => GCast QConnect end%N).
Example C94_example : exists w x l, seq_reachable S0 w /\ size (w_regs w) = 2 /\ i_name x = Some "db"%string /\ i_links x = [PLocal 2] /\
  serves S0 console_type (console_server (PLocal 2) (fun _ => w)) (PLocal 1) eq 0 new_plocal
    [IUserLocal (Val 7 0); IUserLocal (Val 7 1)] [MUser (Val 7 0); MUser (Val 7 1)]
    [ECall QProcesses (From (PLocal 9) (RLocal 5) false) (ROk (Some (AProcesses [PLocal 1; PLocal 2]))); EReply (From (PLocal 9) (RLocal 5) false) (AProcesses [PLocal 1; PLocal 2]);
     ECall (QInfo [PLocal 1; PLocal 77]) (From (PLocal 8) (RLocal 6) false) (ROk (Some (AInfo [Some x; None]))); EReply (From (PLocal 8) (RLocal 6) false) (AInfo [Some x; None])]
    (Serving 2) l.
Proof.
  assert (exists w, seq_reachable S0 w /\ match run (info (PLocal 1)) w with
    | Done w1 (Some x) => size (w_regs w) = 2 /\ i_name x = Some "db"%string /\ i_links x = [PLocal 2] /\
        (match run (console_call (PLocal 2) QProcesses) w with Done _ r => r = Some (AProcesses [PLocal 1; PLocal 2]) | _ => False end) /\
        (match run (console_call (PLocal 2) (QInfo [PLocal 1; PLocal 77])) w with Done _ r => r = Some (AInfo [Some x; None]) | _ => False end) | _ => False end) as (w & Hw & H).
  { refine (play_some S0 _ [CSpawn 0 false false; CSpawn 1 true false; CRegister (PLocal 1) "db"] _).
    vm_compute. auto 10. }
  destruct (run (info (PLocal 1)) w) as [w1 [x|]| |]; try done. destruct H as (H0 & H1 & H2 & H3 & H4). exists w, x.
  assert (serves S0 console_type (console_server (PLocal 2) (fun _ => w)) (PLocal 1) eq 0 new_plocal [] [] [] (Serving 0) new_plocal) as Hs by constructor.
  apply serves_arrival with (x := IUserLocal (Val 7 0)) in Hs. apply serves_arrival with (x := IUserLocal (Val 7 1)) in Hs. cbn [app] in Hs.
  take1 Hs. change (gview console_type (MUser (Val 7 0))) with (inl (GCall (From (PLocal 9) (RLocal 5) false) QProcesses) : gmsg cmsg + sysmsg) in Hs.
  rewrite (console_turn (PLocal 2) (fun _ => w) (PLocal 1) _ _ QProcesses (AProcesses [PLocal 1; PLocal 2]) H3) in Hs. cbn [fst snd] in Hs.
  take1 Hs. change (gview console_type (MUser (Val 7 1))) with (inl (GCall (From (PLocal 8) (RLocal 6) false) (QInfo [PLocal 1; PLocal 77])) : gmsg cmsg + sysmsg) in Hs.
  rewrite (console_turn (PLocal 2) (fun _ => w) (PLocal 1) _ _ (QInfo [PLocal 1; PLocal 77]) (AInfo [Some x; None]) H4) in Hs. cbn [fst snd] in Hs.
  eexists. split_and!; try done.
Qed.
(** "Every request of a console is answered" is false: asked about a process of another node - which is what the links of a
    process may lead to - the server panics, and a request waiting behind it is never answered. *)
Definition C94_statement : Prop :=
  forall S me m w, seq_reachable S w -> request m -> exists x, run (console_call me m) w = Done w (Some x).
Theorem C94_refuted : ~ C94_statement.
Proof. intros H. destruct (H S0 (PLocal 2) (QInfo [PRemote 2 1]) world0 ltac:(exists []; constructor) I) as [x Hx]. discriminate. Qed.
Print Assumptions C94_refuted.
Example C94_links_lead_there : exists w x, seq_reachable S0 w /\ run (info (PLocal 3)) w = Done w (Some x) /\ i_links x = [PRemote 7 2] /\
  exists l, serves S0 console_type (console_server (PLocal 2) (fun _ => w)) (PLocal 1) eq 0 new_plocal
    [IUserLocal (Val 7 2); IUserLocal (Val 7 0)] [MUser (Val 7 2)]
    [ECall (QInfo [PRemote 2 1]) (From (PLocal 7) (RLocal 7) false) (RPanic "Can't query information on a remote process!")]
    (Crashed "Can't query information on a remote process!") l /\ mailbox l = [PVal (Val 7 0)].
Proof.
  assert (exists w, seq_reachable S0 w /\ match run (info (PLocal 3)) w with Done _ (Some x) => i_links x = [PRemote 7 2] | _ => False end) as (w & Hw & H).
  { refine (play_some S0 _ [CNodeStart "a" (SA4 1 5); CConnect (NRemote "b" (SA4 2 5)); CSpawn 0 false false; CLink 3 (PRemote 7 2)] _).
    vm_compute. auto. }
  destruct (run (info (PLocal 3)) w) as [w1 [x|]| |] eqn:Er; try done.
  destruct (gives_run _ _ w (gives_info (eq w) 3)) as (o & Ho & _). rewrite Er in Ho. injection Ho as -> <-. exists w, x. split_and!; [exact Hw|done|exact H|].
  assert (serves S0 console_type (console_server (PLocal 2) (fun _ => w)) (PLocal 1) eq 0 new_plocal [] [] [] (Serving 0) new_plocal) as Hs by constructor.
  apply serves_arrival with (x := IUserLocal (Val 7 2)) in Hs. apply serves_arrival with (x := IUserLocal (Val 7 0)) in Hs. cbn [app] in Hs.
  take1 Hs. eexists. split; [exact Hs|reflexivity].
Qed.

(** ** C95: the websocket server. *)
(** The documented reasons. *)
Definition start_reason (e : bind_error) : string :=
  match e with AddrInUse => "address_in_use" | AddrNotAvailable => "address_not_available" | WouldBlock => "would_block" | _ => "unknown" end.
(** The server starts exactly when its address can be bound.  If not, it says why, and no process is started; if so, there is one
    new process - the acceptor -, alive, linked with the server both ways, and nobody else is touched.  In both cases the server traps exits. *)
Theorem C95_start :
  forall S w me r bound, occurs S w -> w_regs w !! me = Some r -> is_Some (w_loc w !! me) ->
    exists w1 x, run (ws_init me bound) w = Done w1 x /\ run (flags me) w1 = Done w1 true /\
      match bound, x with
      | Some e, inl why => why = RCustom (start_reason e) /\ w_regs w1 = <[me := Reg (r_name r) true (r_exit r) (r_abort r)]> (w_regs w) /\ w_loc w1 = w_loc w
      | None, inr p => exists i, p = PLocal i /\ w_loc w !! i = None /\ run (alive p) w1 = Done w1 true /\
          linked w1 me i = true /\ linked w1 i me = true /\
          w_regs w1 = <[i := new_reg]> (<[me := Reg (r_name r) true (r_exit r) (r_abort r)]> (w_regs w)) /\
          (forall j, j <> i -> w_loc w1 !! j = w_loc w !! j) /\
          (forall q j, j <> me -> j <> i -> q ∈ default ∅ (w_links w1 !! j) <-> q ∈ default ∅ (w_links w !! j))
      | _, _ => False
      end.
Proof.
  intros S w me r bound Ho Hr Hl.
  assert (exists w0, run (set_flags me true) w = Done w0 tt /\ run (flags me) w0 = Done w0 true /\ occurs S w0 /\
    w_regs w0 = <[me := Reg (r_name r) true (r_exit r) (r_abort r)]> (w_regs w) /\ w_loc w0 = w_loc w /\ w_links w0 = w_links w /\ w_next_pid w0 = w_next_pid w) as (w0 & E0 & Ef & Ho0 & H1 & H2 & H3 & H4).
  { eexists. split; [reflexivity|]. cbn. rewrite lookup_alter, Hr. cbn. split_and!; try reflexivity.
    - apply (occurs_run S w (CSetFlags me true) _ Ho). eapply happens_done. reflexivity.
    - apply map_eq. intros j. destruct (decide (j = me)) as [->|Hj].
      + by rewrite lookup_alter, lookup_insert, Hr.
      + by rewrite lookup_alter_ne, lookup_insert_ne by congruence. }
  unfold ws_init. rewrite run_bind, E0. destruct bound as [e|].
  - exists w0, (inl (RCustom (bind_reason e))). cbn [run]. split_and!; auto.
  - destruct (C30_spawned S w0 me true false Ho0) as (w1 & E1 & B1 & B2 & B3 & B4 & B5 & B6 & B7 & B8 & B9 & B10); [rewrite H2; auto|].
    rewrite run_bind, E1. exists w1, (inr (PLocal (w_next_pid w0))). cbn [run fst].
    assert (me <> w_next_pid w0) as Hne.
    { intros E. rewrite H2, <- E in B1. rewrite B1 in Hl. by destruct Hl. }
    split_and!; [reflexivity| |].
    + cbn. rewrite B6, lookup_insert_ne by congruence. cbn in Ef. rewrite H1, lookup_insert in *. reflexivity.
    + exists (w_next_pid w0). split_and!; try done.
      * by rewrite <- H2.
      * unfold linked. apply bool_decide_eq_true. apply B8. right. split; [done|]. auto.
      * unfold linked. apply bool_decide_eq_true. apply B8. right. split; [done|]. auto.
      * by rewrite B6, H1.
      * intros j Hj. rewrite (B10 j Hj), H2. cbn. by destruct (w_loc w !! j).
      * intros q j Hj Hj'. rewrite (B8 q j), H3. naive_solver.
Qed.
Print Assumptions C95_start.
(** When the server terminates, the acceptor is killed, whatever its flags, and no other process is told anything. *)
Theorem C95_stop :
  forall w me i r, w_regs w !! i = Some r ->
    exists w1, run (ws_terminate me (Some (PLocal i))) w = Done w1 tt /\ same_elsewhere w w1 /\ w_loc w1 = w_loc w /\
      w_regs w1 = <[i := terminated RKill r]> (w_regs w) /\ run (alive (PLocal i)) w1 = Done w1 false.
Proof.
  intros w me i r Hr. destruct (C18_exit_table me i RKill w r Hr) as (w1 & E & H1 & H2 & H3).
  exists w1. split_and!; auto. cbn. rewrite H2, lookup_insert. reflexivity.
Qed.
Print Assumptions C95_stop.
(** One connection.  [contract]: tungstenite calls the callback before it completes a handshake, and does not complete one the
    callback has refused.  The connection gets its handler exactly when the handshake completes in time, T::accept having agreed; the
    acceptor's "must have a handler" cannot fail; and a time limit bounds the whole, with TLS too. *)
Definition contract (asked : option bool) (good : bool) : Prop := good = true -> asked = Some true.
Definition within (limit took : option N) : Prop := match limit, took with Some d, Some t => (t <= d)%N | None, Some _ => True | _, None => False end.
Theorem C95_accepts :
  forall limit asked took good, contract asked good ->
    (fst (server_accept limit asked took good) = Handler <-> within limit took /\ good = true) /\
    (fst (server_accept limit asked took good) = Handler -> asked = Some true) /\
    (forall why, fst (server_accept limit asked took good) <> HandlerPanic why) /\
    (forall d, limit = Some d -> exists t, snd (server_accept limit asked took good) = Some t /\ (t <= d)%N).
Proof.
  intros limit asked took good Hc. unfold server_accept, contract, within, in_time in *.
  destruct limit as [d|], took as [t|]; cbn; try (destruct (N.leb_spec t d)); try destruct good; try rewrite (Hc eq_refl); cbn;
    (split_and!; [naive_solver lia|naive_solver|done|]); intros d' E; try discriminate; injection E as <-; eexists; (split; [reflexivity|lia]).
Qed.
Print Assumptions C95_accepts.
Theorem C95_accepts_tls :
  forall limit tls_took tls_good asked took good, contract asked good ->
    let res := server_accept_tls limit tls_took tls_good asked took good in
    (fst res = Handler <-> exists t1 t2, tls_took = Some t1 /\ took = Some t2 /\ tls_good = true /\ good = true /\ within limit (Some (t1 + t2)%N)) /\
    (forall why, fst res <> HandlerPanic why) /\
    (forall d, limit = Some d -> exists t, snd res = Some t /\ (t <= d)%N) /\
    (fst res = Handler -> forall t1 t2, tls_took = Some t1 -> took = Some t2 -> snd res = Some (t1 + t2)%N).
Proof.
  intros limit tls_took tls_good asked took good Hc.
  enough ((let res := server_accept_tls limit tls_took tls_good asked took good in
    (fst res = Handler <-> exists t1 t2, tls_took = Some t1 /\ took = Some t2 /\ tls_good = true /\ good = true /\ within limit (Some (t1 + t2)%N)) /\
    (forall why, fst res <> HandlerPanic why) /\
    (forall d, limit = Some d -> exists t, snd res = Some t /\ (t <= d)%N)) /\
    (fst (server_accept_tls limit tls_took tls_good asked took good) = Handler ->
     forall t1 t2, tls_took = Some t1 -> took = Some t2 -> snd (server_accept_tls limit tls_took tls_good asked took good) = Some (t1 + t2)%N))
    as [(H1 & H2 & H3) H4] by (cbn zeta; auto).
  split.
  2:{ intros H t1 t2 -> ->. unfold server_accept_tls, server_accept in *. destruct (in_time limit (Some t1)); [|discriminate].
      destruct tls_good; [|discriminate]. cbn [default] in *. destruct (in_time _ (Some t2)); [done|discriminate]. }
  intros res. subst res. unfold server_accept_tls.
  destruct (in_time limit tls_took) eqn:E; unfold in_time in E.
  - destruct tls_took as [t1|]; [|by destruct limit]. destruct tls_good; [|cbn; split_and!; [naive_solver|done|]].
    + set (limit' := match limit with Some d => Some (d - N.min (default 0%N (Some t1)) d)%N | None => None end).
      destruct (C95_accepts limit' asked took good Hc) as (A1 & A2 & A3 & A4).
      destruct (server_accept limit' asked took good) as [r t] eqn:Er. cbn [fst snd] in *. split_and!; [|done|].
      * rewrite A1. subst limit'. unfold within. destruct limit as [d|]; cbn.
        -- apply N.leb_le in E. split.
           ++ intros [H ->]. destruct took as [t2|]; [|done]. exists t1, t2. split_and!; auto. lia.
           ++ intros (a & b & [= <-] & -> & _ & -> & H). split; [lia|done].
        -- split; [intros [H ->]; destruct took as [t2|]; [|done]; exists t1, t2; auto|]. intros (a & b & [= <-] & -> & _ & -> & H). auto.
      * intros d ->. apply N.leb_le in E. destruct (A4 _ eq_refl) as (t2 & -> & H). cbn in *. eexists. split; [reflexivity|]. lia.
    + intros d ->. apply N.leb_le in E. eauto.
  - cbn. split_and!; [|done|intros d ->; eauto]. split; [done|]. intros (a & b & -> & -> & _ & _ & H). unfold within in H. destruct limit as [d|]; [|done].
    apply N.leb_nle in E. lia.
Qed.
Print Assumptions C95_accepts_tls.
(** With TLS the acceptor serves exactly if the certificate it was given - the PKCS #12 one if both were - parses and
    is accepted by the TLS library; otherwise it panics. *)
Theorem C95_certificate :
  forall pkcs12 pkcs8 loads, acceptor_tls pkcs12 pkcs8 loads = None <->
    loads = true /\ (pkcs12 = Some true \/ pkcs12 = None /\ pkcs8 = Some true).
Proof. intros [[]|] [[]|] []; cbn; naive_solver. Qed.
Print Assumptions C95_certificate.
Example C95_example :
  contract (Some true) true /\ fst (server_accept_tls (Some 10%N) (Some 4%N) true (Some true) (Some 6%N) true) = Handler /\
  fst (server_accept_tls (Some 10%N) (Some 4%N) true (Some true) (Some 7%N) true) = TooLate /\
  exists w r, seq_reachable S0 w /\ w_regs w !! 1%N = Some r /\
    match run (ws_init 1 None) w with Done w1 x => x = inr (PLocal 2) /\ bool_decide (is_Some (w_regs w1 !! 2%N)) = true | _ => False end.
Proof.
  split_and!; try done. assert (exists w, seq_reachable S0 w /\ match w_regs w !! 1%N with Some r =>
    match run (ws_init 1 None) w with Done w1 x => x = inr (PLocal 2) /\ bool_decide (is_Some (w_regs w1 !! 2%N)) = true | _ => False end | None => False end) as (w & Hw & H).
  { refine (play_some S0 _ [CSpawn 0 false false] _). vm_compute. auto. }
  destruct (w_regs w !! 1%N) as [r|] eqn:E; [|done]. exists w, r. split_and!; auto.
Qed.
(** "A server that runs accepts connections" is false.  The acceptor may panic - with the feature native-tls it does so when the
    certificate is missing or wrong, after the start has been reported as a success -; the server then gets a message, which the
    callback it does not define ignores: it goes on, so its supervisor has nothing to restart, and nobody accepts connections. *)
Definition C95_statement : Prop :=
  forall S w me r w1 i w2 pkcs12 pkcs8 loads why, seq_reachable S w -> w_regs w !! me = Some r -> run (ws_init me None) w = Done w1 (inr (PLocal i)) ->
    acceptor_tls pkcs12 pkcs8 loads = Some why -> happens S (CCrash i (RCustom why)) w1 w2 ->
    (* the server has ended, or will when it has dealt with its mail *)
    w_regs w2 !! me = None \/
    exists l, w_loc w2 !! me = Some l /\ forall G parent handled events s l', parent <> PLocal i ->
      serves S G ws_server parent eq tt l [] handled events s l' -> mailbox l' = [] -> forall st, s <> Serving st.
Theorem C95_refuted : ~ C95_statement.
Proof.
  intros H.
  assert (exists w, seq_reachable S0 w /\ match w_regs w !! 1%N, run (ws_init 1 None) w with
    | Some r, Done w1 (inr (PLocal 2)) => match run (call_prog S0 (CCrash 2 (RCustom "Failed to parse pkcs8 certificate!"))) w1 with
        | Done w2 _ => bool_decide (w_regs w2 !! 1%N = None) = false /\
            match w_loc w2 !! 1%N with Some l => receive S0 7 true l = (Found (MSystem (SExit (PLocal 2) (RCustom "Failed to parse pkcs8 certificate!"))), new_plocal) | None => False end
        | _ => False end
    | _, _ => False end) as (w & Hw & Hx).
  { refine (play_some S0 _ [CSpawn 0 false false] _). vm_compute. auto. }
  destruct (w_regs w !! 1%N) as [r|] eqn:Er; [|done]. destruct (run (ws_init 1 None) w) as [w1 [|[[|[| [] |]]|]]| |] eqn:Ei; try done.
  destruct (run (call_prog S0 (CCrash 2 (RCustom "Failed to parse pkcs8 certificate!"))) w1) as [w2 v| |] eqn:Ec; try done. destruct Hx as [H1 H2]. apply bool_decide_eq_false in H1.
  destruct (H S0 w 1%N r w1 2%N w2 None (Some false) true _ Hw Er Ei eq_refl) as [E|(l & El & Hl)]; [eapply happens_done; exact Ec|done|].
  rewrite El in H2. set (G := GType 7 (fun _ => Val 7 0) (fun _ => GStop RNormal) : gtype unit).
  assert (serves S0 G ws_server (PLocal 9) eq tt l [] [] [] (Serving tt) l) as Hs by constructor.
  pose proof (serves_turn _ _ _ _ eq _ _ _ _ _ _ _ _ _ _ Hs H2 eq_refl) as H3.
  refine (Hl G (PLocal 9) _ _ _ _ _ H3 _ tt _); [discriminate|reflexivity|reflexivity].
Qed.
Print Assumptions C95_refuted.
