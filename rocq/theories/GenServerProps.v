(** Property theorems C33 and C34: gen_server.rs. *)
From stdpp Require Import base list gmap numbers strings countable sorting relations.
From Coq Require Import Lia.
From Verif Require Import Prog ProgProofs ProgInv Types Mailbox MailboxSpec MailboxProofs World ProcApi NodeApi Api Steps Hist Play
  SchedSpec SchedProps ProcSpec ProcProofs FreshProofs MonProofs ProcProps LifeProps GenServer GenServerSpec.

(** ** C33 *)
Lemma receive_strict S T l res l' : serde_typed S -> receive S T true l = (res, l') ->
  match res with
  | Found m => exists p, read S T p = Some m /\ forall xs, mailbox (arrive xs l) = p :: mailbox (arrive xs l')
  | Waiting => mailbox l = [] /\ forall xs, mailbox (arrive xs l) = mailbox (arrive xs l')
  | TypePanic => exists p rest, mailbox l = p :: rest /\ read S T p = None
  end.
Proof.
  intros Hty H. unfold receive in H. apply (select_spec S Hty) in H as (Hm & pre & pre' & Hsm & Hu & Hrd & Hmain).
  assert (Hpre : pre = []).
  { destruct pre as [|p pre]; [reflexivity|]. exfalso. inversion Hu as [|? ? Hp]; subst.
    specialize (Hrd eq_refl). inversion Hrd as [|? ? Hr]; subst. unfold wanted in Hp. unfold readable in Hr.
    destruct (read S T p); [discriminate|contradiction]. }
  subst pre. inversion Hsm; subst pre'. destruct res as [m| |].
  - destruct Hmain as (p & Hrp & _ & Hx). exists p. split; [exact Hrp|]. intros xs. destruct (Hx xs) as (post & -> & ->). reflexivity.
  - destruct Hmain as (Hch & Hst & Hq). split.
    + unfold mailbox. specialize (Hq []). rewrite app_nil_r in Hq. exact Hq.
    + intros xs. unfold mailbox at 2. cbn [arrive set_chan l_monitors l_items l_chan]. rewrite Hch. cbn [app].
      rewrite Hst by reflexivity. unfold mailbox. cbn [arrive set_chan l_monitors l_items l_chan]. rewrite app_assoc. apply Hq.
  - destruct Hmain as (_ & p & post & Hrp & E). exists p, post. auto.
Qed.
Lemma arrive_nil l : arrive [] l = l.
Proof. unfold arrive. rewrite app_nil_r. by destruct l. Qed.
Lemma arrive_arrive xs ys l : arrive ys (arrive xs l) = arrive (xs ++ ys) l.
Proof. unfold arrive, set_chan; cbn. by rewrite app_assoc. Qed.

Section trace.
  Context {M St : Type} (cb : callbacks M St) (parent : pid).
  (** What one round does, against the specification. *)
  Lemma turn_spec st m es s : turn cb parent st m = (es, s) ->
    omap called es = option_list (callback_for parent m) /\ omap asked es = omap replied es /\
    match s with
    | Serving _ => stop_reason parent m = None /\ omap failed es = [] /\ omap terminates es = []
    | Exited r => exists es', es = es' ++ [ETerminate r] /\ omap terminates es' = [] /\
                   (stop_reason parent m = Some r /\ es' = [] \/
                    stop_reason parent m = None /\ exists e, es' = [e] /\ failed e = Some r)
    | Crashed _ => length (omap terminates es) <= 1
    end.
  Proof.
    assert (forall st why es s, finish cb st why = (es, s) -> es = [ETerminate why] /\ (s = Exited why \/ exists x, s = Crashed x)) as Hf.
    { intros st0 why es0 s0. unfold finish. destruct (terminate cb st0 why) as [? [x|]]; intros [= <- <-]; eauto. }
    assert (forall A st (r : result A) ok es s, after cb st r ok = (es, s) ->
      match r with ROk a => es = ok a /\ s = Serving st
                 | RErr why => es = [ETerminate why] /\ (s = Exited why \/ exists x, s = Crashed x)
                 | RPanic x => es = [] /\ s = Crashed x end) as Ha.
    { intros A st0 r ok es0 s0. unfold after. destruct r; [by intros [= <- <-] | apply Hf | by intros [= <- <-]]. }
    unfold turn. destruct m as [[m|f m|tag m|why]|m]; cbn [callback_for stop_reason].
    - destruct (handle_cast cb st m) as [st' r]. destruct (after cb st' r _) as [es1 s1] eqn:E. intros [= <- <-]. apply Ha in E.
      destruct r as [[]|why|x]; destruct E as [-> E]; [subst s1|destruct E as [->|[y ->]]|subst s1]; cbn; split_and!; auto; try lia.
      exists [ECast m (RErr why)]. split_and!; auto. right. split; [done|]. by eexists.
    - destruct (handle_call cb st m f) as [st' r]. destruct (after cb st' r _) as [es1 s1] eqn:E. intros [= <- <-]. apply Ha in E.
      destruct r as [[x|]|why|x]; destruct E as [-> E]; [subst s1|subst s1|destruct E as [->|[y ->]]|subst s1]; cbn; split_and!; auto; try lia.
      exists [ECall m f (RErr why)]. split_and!; auto. right. split; [done|]. by eexists.
    - destruct (handle_info cb st (inl m)) as [st' r]. destruct (after cb st' r _) as [es1 s1] eqn:E. intros [= <- <-]. apply Ha in E.
      destruct r as [[]|why|x]; destruct E as [-> E]; [subst s1|destruct E as [->|[y ->]]|subst s1]; cbn; split_and!; auto; try lia.
      exists [EInfo (inl m) (RErr why)]. split_and!; auto. right. split; [done|]. by eexists.
    - intros E. apply Hf in E as [-> [->|[y ->]]]; cbn; split_and!; auto; try lia. exists []. auto.
    - assert (forall es s, (let '(st', r) := handle_info cb st (inr m) in
               let '(es, s) := after cb st' r (fun _ => []) in (EInfo (inr m) r :: es, s)) = (es, s) -> stop_reason (M:=M) parent (inr m) = None ->
               omap called es = option_list (Some (KInfo (inr m))) /\ omap asked es = omap replied es /\
               match s with
               | Serving _ => (None : option exit_reason) = None /\ omap failed es = [] /\ omap terminates es = []
               | Exited r => exists es', es = es' ++ [ETerminate r] /\ omap terminates es' = [] /\
                   ((None : option exit_reason) = Some r /\ es' = [] \/ (None : option exit_reason) = None /\ exists e, es' = [e] /\ failed e = Some r)
               | Crashed _ => length (omap terminates es) <= 1
               end) as Hi.
      { intros es0 s0. destruct (handle_info cb st (inr m)) as [st' r]. destruct (after cb st' r _) as [es1 s1] eqn:E. intros [= <- <-] _. apply Ha in E.
        destruct r as [[]|why|x]; destruct E as [-> E]; [subst s1|destruct E as [->|[y ->]]|subst s1]; cbn; split_and!; auto; try lia.
        exists [EInfo (inr m) (RErr why)]. split_and!; auto. right. split; [done|]. by eexists. }
      destruct m as [p why|d r why|n r]; cbn [stop_reason callback_for] in *; [|intros E; by apply Hi..].
      destruct (decide (p = parent)) as [->|Hp]; [|intros E; by apply Hi].
      intros E. apply Hf in E as [-> [->|[y ->]]]; cbn; split_and!; auto; try lia. exists []. auto.
  Qed.
End trace.

(** Messages in order.  However messages arrive and whatever the callbacks return, the messages the
    server has handled are exactly the oldest pending ones, in order, each given to the callback
    that is documented for it (a stop request and the parent's exit signal to none), and while it
    serves everything else is still pending.  (Callbacks that do not receive messages themselves.) *)
Theorem C33_messages_in_order :
  forall (M St : Type) (S : serde) (G : gtype M) (cb : callbacks M St) (parent : pid) (own : plocal -> plocal -> Prop)
    st0 l0 arrived handled events s l,
    serde_typed S -> (forall a b, own a b -> keeps_mailbox a b) ->
    serves S G cb parent own st0 l0 arrived handled events s l ->
    exists done rest, mailbox (after_arrival arrived l0) = done ++ rest /\
      map (read S (gt_id G)) done = map Some handled /\
      omap called events = omap (fun m => callback_for parent (gview G m)) handled /\
      (forall st, s = Serving st -> mailbox l = rest).
Proof.
  intros M St S G cb parent own st0 l0 arr ms es s l Hty Hown H.
  assert (exists done, map (read S (gt_id G)) done = map Some ms /\
      omap called es = omap (fun m => callback_for parent (gview G m)) ms /\
      (forall xs, exists rest, mailbox (arrive xs (after_arrival arr l0)) = done ++ rest) /\
      ((exists st, s = Serving st) -> forall xs, mailbox (arrive xs (after_arrival arr l0)) = done ++ mailbox (arrive xs l))) as Hmain.
  { induction H as [|arr ms es s l x H IH|arr ms es st l m l1 l2 H IH Hr Ho|arr ms es st l l1 H IH Hr|arr ms es st l l1 H IH Hr].
    - exists []. split_and!; auto.
      + intros xs. by eexists.
      + intros _ xs. change (after_arrival [] l0) with (arrive [] l0). by rewrite arrive_nil.
    - destruct IH as (d & H1 & H2 & H3 & H4). exists d. split_and!; auto.
      + intros xs. destruct (H3 (x :: xs)) as [rest Hx]. exists rest. rewrite <- Hx.
        change (after_arrival (arr ++ [x]) l0) with (arrive (arr ++ [x]) l0). change (after_arrival arr l0) with (arrive arr l0). by rewrite !arrive_arrive, <- app_assoc.
      + intros Hs xs. change (set_chan (l_chan l ++ [x]) l) with (arrive [x] l). rewrite (arrive_arrive [x] xs l). rewrite <- (H4 Hs).
        change (after_arrival (arr ++ [x]) l0) with (arrive (arr ++ [x]) l0). change (after_arrival arr l0) with (arrive arr l0).
        by rewrite !arrive_arrive, <- app_assoc.
    - destruct IH as (d & H1 & H2 & _ & H4). specialize (H4 (ex_intro _ st eq_refl)).
      apply (receive_strict S _ _ _ _ Hty) in Hr as (p & Hp & Hx).
      destruct (turn cb parent st (gview G m)) as [es1 s1] eqn:Et. cbn [fst snd]. apply turn_spec in Et as (Ec & _).
      exists (d ++ [p]).
      assert (forall xs, mailbox (arrive xs (after_arrival arr l0)) = (d ++ [p]) ++ mailbox (arrive xs l2)) as Hb.
      { intros xs. rewrite H4, Hx, <- app_assoc. cbn [app]. do 2 f_equal. apply (Hown _ _ Ho). }
      split_and!.
      + rewrite !map_app, H1. cbn. by rewrite Hp.
      + rewrite !omap_app, H2, Ec. cbn. by destruct (callback_for parent (gview G m)).
      + intros xs. eexists. apply Hb.
      + intros _. exact Hb.
    - destruct IH as (d & H1 & H2 & H3 & H4). apply (receive_strict S _ _ _ _ Hty) in Hr as [_ Hx].
      exists d. split_and!; auto. intros Hs xs. by rewrite (H4 Hs), Hx.
    - destruct IH as (d & H1 & H2 & H3 & H4). exists d. split_and!; auto. by intros [? ?]. }
  destruct Hmain as (d & H1 & H2 & H3 & H4). destruct (H3 []) as [rest Hr]. rewrite arrive_nil in Hr.
  exists d, rest. split_and!; auto. intros st ->. specialize (H4 (ex_intro _ st eq_refl) []). rewrite !arrive_nil, Hr in H4.
  by apply app_inv_head in H4.
Qed.
Print Assumptions C33_messages_in_order.

(** terminate: while the server serves it has not been called, no callback has failed and neither a
    stop request nor the parent's exit signal has come.  When it has exited with [r], terminate was
    called exactly once, last, with [r], and either the last message was a stop request or the
    parent's exit signal with [r] (and no callback ran for it), or the last callback returned Err(r).
    If it panicked, terminate was called at most once. *)
Theorem C33_terminate :
  forall (M St : Type) (S : serde) (G : gtype M) (cb : callbacks M St) (parent : pid) (own : plocal -> plocal -> Prop)
    st0 l0 arrived handled events s l,
    serves S G cb parent own st0 l0 arrived handled events s l ->
    match s with
    | Serving _ => omap terminates events = [] /\ omap failed events = [] /\
                   Forall (fun m => stop_reason parent (gview G m) = None) handled
    | Exited r => exists before last earlier, events = before ++ [ETerminate r] /\ omap terminates before = [] /\
        handled = earlier ++ [last] /\ Forall (fun m => stop_reason parent (gview G m) = None) earlier /\
        (stop_reason parent (gview G last) = Some r /\ omap failed before = [] \/
         stop_reason parent (gview G last) = None /\
         exists before' e, before = before' ++ [e] /\ failed e = Some r /\ omap failed before' = [])
    | Crashed _ => length (omap terminates events) <= 1
    end.
Proof.
  intros M St S G cb parent own st0 l0 arr ms es s l H.
  induction H as [|arr ms es s l x H IH|arr ms es st l m l1 l2 H IH Hr Ho|arr ms es st l l1 H IH Hr|arr ms es st l l1 H IH Hr]; auto.
  - destruct IH as (I1 & I2 & I3). destruct (turn cb parent st (gview G m)) as [es1 s1] eqn:Et. cbn [fst snd].
    apply turn_spec in Et as (_ & _ & Hs). destruct s1 as [st1|r|y].
    + destruct Hs as (S1 & S2 & S3). rewrite !omap_app, I1, I2, S2, S3. split_and!; auto. apply Forall_app; auto.
    + destruct Hs as (es' & -> & Ht & Hc). exists (es ++ es'), m, ms. rewrite app_assoc, !omap_app, I1, I2, Ht. split_and!; auto.
      destruct Hc as [[Hc ->]|[Hc (e & -> & He)]]; [left; auto|right]. split; [done|]. exists es, e. auto.
    + rewrite omap_app, I1. exact Hs.
  - destruct IH as (I1 & _). rewrite I1. cbn. lia.
Qed.
Print Assumptions C33_terminate.

(** Replies: exactly the messages handle_call returned, to the callers it was given, in order. *)
Theorem C33_replies :
  forall (M St : Type) (S : serde) (G : gtype M) (cb : callbacks M St) (parent : pid) (own : plocal -> plocal -> Prop)
    st0 l0 arrived handled events s l,
    serves S G cb parent own st0 l0 arrived handled events s l -> omap replied events = omap asked events.
Proof.
  intros M St S G cb parent own st0 l0 arr ms es s l H.
  induction H as [|arr ms es s l x H IH|arr ms es st l m l1 l2 H IH Hr Ho|arr ms es st l l1 H IH Hr|arr ms es st l l1 H IH Hr]; auto.
  destruct (turn cb parent st (gview G m)) as [es1 s1] eqn:Et. apply turn_spec in Et as (_ & Ha & _). cbn [fst].
  by rewrite !omap_app, IH, Ha.
Qed.
Print Assumptions C33_replies.

(** A server that serves takes the oldest pending message as soon as there is one (and panics if it
    is not one of its own). *)
Theorem C33_progress :
  forall (M St : Type) (S : serde) (G : gtype M) (cb : callbacks M St) (parent : pid) (own : plocal -> plocal -> Prop)
    st0 l0 arrived handled events st l p rest,
    serde_typed S -> (forall a, own a a) -> serves S G cb parent own st0 l0 arrived handled events (Serving st) l -> mailbox l = p :: rest ->
    match read S (gt_id G) p with
    | Some m => exists l1, mailbox l1 = rest /\
        serves S G cb parent own st0 l0 arrived (handled ++ [m]) (events ++ fst (turn cb parent st (gview G m))) (snd (turn cb parent st (gview G m))) l1
    | None => exists l1, serves S G cb parent own st0 l0 arrived handled events (Crashed "Unsupported message type!") l1
    end.
Proof.
  intros M St S G cb parent own st0 l0 arr ms es st l p rest Hty Hown H Hp.
  destruct (receive S (gt_id G) true l) as [res l1] eqn:E. pose proof E as E0. apply (receive_strict S _ _ _ _ Hty) in E. destruct res as [m| |].
  - destruct E as (p' & Hr & Hx). specialize (Hx []). rewrite !arrive_nil, Hp in Hx. injection Hx as <- Hm. rewrite Hr.
    exists l1. split; [by rewrite <- Hm|]. eapply serves_turn; eauto.
  - destruct E as [E _]. congruence.
  - destruct E as (p' & rest' & Hx & Hr). rewrite Hp in Hx. injection Hx as <- <-. rewrite Hr.
    exists l1. eapply serves_type_panic; eauto.
Qed.
Print Assumptions C33_progress.

(** Exiting: Process::exit(current, r) and the return of the future.  The rest of the node sees
    process [i] end with reason [r], whatever [r] is (unless another exit signal came in between). *)
Theorem C33_exits_with_reason :
  forall S w i r why, occurs S w -> w_regs w !! i = Some r ->
    exists w1 w2, run (exit i (PLocal i) why) w = Done w1 tt /\
      run (drop_process i) w1 = Done w2 tt /\ exited w1 i (terminated why r) why w2 /\
      w_loc w1 = w_loc w /\ w_links w1 = w_links w /\ w_mons w1 = w_mons w /\ (forall j, j <> i -> w_regs w1 !! j = w_regs w !! j).
Proof.
  intros S w i r why Ho E. pose proof (C18_exit_table i i why w r E) as (w1 & Hr & Hse & Ht).
  rewrite bool_decide_true in Ht by reflexivity.
  assert (exit_table true (r_trap r) why = Terminated) as Et by (by destruct why).
  rewrite Et in Ht. destruct Ht as [Hregs Hloc].
  assert (occurs S w1) as Ho1.
  { apply (occurs_run S w (CExit i (PLocal i) why)); [exact Ho|]. eapply happens_done. cbn [call_prog]. unfold ret_as.
    rewrite run_bind, Hr. reflexivity. }
  destruct (C18_terminated S w1 i why r Ho1) as [_ (w2 & H2 & Hx)]; [rewrite Hregs; apply lookup_insert|].
  exists w1, w2. split_and!; auto; [apply Hse..|]. intros j Hj. by rewrite Hregs, lookup_insert_ne.
Qed.
Print Assumptions C33_exits_with_reason.

(** non-vacuity: a counter server; a cast, a call, an unexpected reply, another process' exit signal
    and a stop request arrive.  The call is answered with the count; then it stops. *)
Definition G0 : gtype N :=
  GType 7 (fun g => match g with GCast m => Val 7 (4 * m) | GCall _ m => Val 7 (4 * m + 1) | GReply _ m => Val 7 (4 * m + 2) | GStop _ => Val 7 3 end)
        (fun v => match (v_data v mod 4)%N with
                  | 0 => GCast (v_data v / 4)%N | 1 => GCall (From (PLocal 9) (RLocal 5) false) (v_data v / 4)%N
                  | 2 => GReply (RLocal 8) (v_data v / 4)%N | _ => GStop (RCustom "bye") end%N).
Definition counter : callbacks N N :=
  Callbacks (fun n m => ((n + m)%N, ROk tt)) (fun n _ _ => (n, ROk (Some n))) (fun n _ => (n, ROk tt)) (fun n _ => (n, None)).
Ltac take H := let H' := fresh in pose proof (serves_turn _ _ _ _ eq _ _ _ _ _ _ _ _ _ _ H eq_refl eq_refl) as H'; clear H; rename H' into H; cbn in H.
Example C33_example : exists l,
  serves S0 G0 counter (PLocal 1) eq 0%N new_plocal
    [IUserLocal (Val 7 20); IUserLocal (Val 7 1); IUserLocal (Val 7 6); ISystem (SExit (PLocal 3) RKill); IUserLocal (Val 7 3); IUserLocal (Val 7 4)]
    [MUser (Val 7 20); MUser (Val 7 1); MUser (Val 7 6); MSystem (SExit (PLocal 3) RKill); MUser (Val 7 3)]
    [ECast 5%N (ROk tt); ECall 0%N (From (PLocal 9) (RLocal 5) false) (ROk (Some 5%N)); EReply (From (PLocal 9) (RLocal 5) false) 5%N;
     EInfo (inl 1%N) (ROk tt); EInfo (inr (SExit (PLocal 3) RKill)) (ROk tt); ETerminate (RCustom "bye")]
    (Exited (RCustom "bye")) l /\ mailbox l = [PVal (Val 7 4)].
Proof.
  pose proof (serves_init S0 G0 counter (PLocal 1) eq 0%N new_plocal) as H.
  apply (serves_arrival _ _ _ _ _ _ _ _ _ _ _ _ (IUserLocal (Val 7 20))) in H.
  apply (serves_arrival _ _ _ _ _ _ _ _ _ _ _ _ (IUserLocal (Val 7 1))) in H.
  apply (serves_arrival _ _ _ _ _ _ _ _ _ _ _ _ (IUserLocal (Val 7 6))) in H.
  take H.
  apply (serves_arrival _ _ _ _ _ _ _ _ _ _ _ _ (ISystem (SExit (PLocal 3) RKill))) in H.
  apply (serves_arrival _ _ _ _ _ _ _ _ _ _ _ _ (IUserLocal (Val 7 3))) in H.
  apply (serves_arrival _ _ _ _ _ _ _ _ _ _ _ _ (IUserLocal (Val 7 4))) in H.
  do 4 take H.
  eexists. split; [exact H|]. reflexivity.
Qed.
(** non-vacuity: handle_cast fails: terminate, then the exit. *)
Example C33_error_example : exists l,
  serves S0 G0 (Callbacks (fun n m => (n, RErr (RCustom "no"))) (fun n _ _ => (n, ROk None)) (fun n _ => (n, ROk tt)) (fun n _ => (n, None)))
    (PLocal 1) eq 0%N new_plocal [IUserLocal (Val 7 20)] [MUser (Val 7 20)] [ECast 5%N (RErr (RCustom "no")); ETerminate (RCustom "no")] (Exited (RCustom "no")) l.
Proof.
  eexists. pose proof (serves_init S0 G0 (Callbacks (fun n m => (n, RErr (RCustom "no"))) (fun n _ _ => (n, ROk None)) (fun n _ => (n, ROk tt)) (fun n _ => (n, None)))
    (PLocal 1) eq 0%N new_plocal) as H.
  apply (serves_arrival _ _ _ _ _ _ _ _ _ _ _ _ (IUserLocal (Val 7 20))) in H.
  take H. exact H.
Qed.
