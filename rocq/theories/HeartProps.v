(** Property theorems C81-C84: a connection between two nodes (hydra/src/node_remote.rs). *)
From stdpp Require Import base list gmap numbers strings countable.
From Coq Require Import Ascii NArith Lia ZifyNat ZifyN ZifyBool.
From Verif Require Import Types Codec CodecSpec CodecProofs CodecProps Options OptionsProps Heart HeartSpec HeartProofs HeartTime.

Lemma payload_idem l : payload (payload l) = payload l.
Proof.
  induction l as [|f l IH]; [done|]. unfold payload in *. destruct (heartbeat f) eqn:E.
  - rewrite filter_cons_False by congruence. exact IH.
  - rewrite filter_cons_True by done. rewrite filter_cons_True by done. by rewrite IH.
Qed.

(** C81.  What arrives at the other node is, in order and without gaps, what was handed over: first what
    was pending when the connection was made, then every frame since; only heartbeats are added. *)
Theorem C81_frames_arrive_in_order :
  forall o may t0 h pending w tr s,
    runs o may (fresh t0 h pending) tr s ->
    Forall sendable (pending w ++ handed w tr) ->
    payload (snd <$> got (peer w) tr) `prefix_of` payload (pending w ++ handed w tr).
Proof.
  intros o may t0 h pending w tr s Hr Hs. pose proof (tried_good o may t0 h pending w tr s Hr Hs) as Hg.
  destruct (pipe_inv o may t0 h pending w tr s Hr Hg) as (W0 & W1 & rest & H0 & H1 & _ & _).
  pose proof (queue_inv o may t0 h pending w tr s Hr) as Hq.
  rewrite H1, <- wire_payload. rewrite <- Hq, H0, payload_app. 
  assert (Forall sendable (payload W0)) as Hsp.
  { apply List.Forall_forall. intros f Hf. apply elem_of_list_In in Hf. rewrite List.Forall_forall in Hs. apply Hs, elem_of_list_In.
    apply (payload_prefix_in f (payload W0)); [|done|by apply elem_of_list_filter in Hf as [? _]].
    exists (payload W1 ++ payload (waiting (get w s))). rewrite <- Hq, H0, payload_app, <- app_assoc. f_equal.
    symmetry. apply payload_idem. }
  rewrite wire_sendable by done. rewrite <- app_assoc. by eexists.
Qed.
Print Assumptions C81_frames_arrive_in_order.

(** A hello on an established connection ends it: the reader does not survive it, whatever the hello says;
    a heartbeat does not end it. *)
Theorem C81_hello_ends_the_connection :
  forall o s s' w f, step o s (Handled w f) s' ->
    match f with
    | FHello _ _ _ => sd_receiving (get w s') = false
    | FPing | FPong => sd_receiving (get w s') = true
    | _ => True
    end.
Proof.
  intros o s s' w f H. inversion H; subst; destruct w, f; cbn in *; auto.
Qed.
Print Assumptions C81_hello_ends_the_connection.

(** Nothing is missing once nothing is under way: as long as the sender runs, when its mailbox, the
    socket and the reader's buffer are drained, everything handed over has arrived. *)
Theorem C81_nothing_lost :
  forall o may t0 h pending w tr s,
    runs o may (fresh t0 h pending) tr s ->
    Forall sendable (pending w ++ handed w tr) ->
    sd_sending (get w s) = true -> sd_queue (get w s) = [] -> sd_out (get w s) = [] -> fst (decode (sd_buf (get (peer w) s))) = NeedMore ->
    payload (snd <$> got (peer w) tr) = payload (pending w ++ handed w tr).
Proof.
  intros o may t0 h pending w tr s Hr Hs Hse Hqu Hou Hd.
  pose proof (tried_good o may t0 h pending w tr s Hr Hs) as Hg.
  destruct (pipe_inv o may t0 h pending w tr s Hr Hg) as (W0 & W1 & rest & H0 & H1 & H2 & H3).
  rewrite (H3 Hse), Hou, !app_nil_r in H2.
  assert (W1 = []) as ->.
  { destruct W1 as [|g W1]; [done|]. exfalso. rewrite H0 in Hg. apply Forall_app in Hg as [_ Hg]. inversion Hg as [|? ? [Hg1 Hg2] _]; subst.
    unfold stream in H2; cbn [map concat] in H2. by rewrite H2, decode_frame in Hd. }
  destruct (C81_frames_arrive_in_order o may t0 h pending w tr s Hr Hs) as [x Hx].
  pose proof (queue_inv o may t0 h pending w tr s Hr) as Hq. unfold waiting in Hq. rewrite Hqu in Hq. cbn in Hq. rewrite app_nil_r in Hq.
  rewrite Hx. assert (length x = 0) as Hl; [|by apply nil_length_inv in Hl; rewrite Hl, app_nil_r].
  apply (f_equal length) in Hx. rewrite <- Hq, H0, app_nil_r, H1, <- wire_payload, app_length, fmap_length in Hx. lia.
Qed.
Print Assumptions C81_nothing_lost.

(** C82.  A pong is written for a ping that arrived, one for each, and otherwise none. *)
Theorem C82_pong_per_ping :
  forall o may t0 h pending w tr s,
    runs o may (fresh t0 h pending) tr s -> Forall (fun f => heartbeat f = false) (pending w) ->
    times FPong (snd <$> wrote w tr) <= times FPing (snd <$> got w tr) /\
    (sd_sending (get w s) = true -> sd_supervising (get w s) = true -> sd_queue (get w s) = [] -> sd_pongs (get w s) = 0 ->
     times FPong (snd <$> wrote w tr) = times FPing (snd <$> got w tr)).
Proof.
  intros o may t0 h pending w tr s Hr Hp. destruct (pong_inv o may t0 h pending w tr s Hr Hp) as [H1 H2]. split.
  - assert (times FPong (snd <$> wrote w tr) <= times FPong (tried w tr)); [|lia].
    clear. induction tr as [|[t e] tr IH]; [done|]. change ((t, e) :: tr) with ([(t, e)] ++ tr).
    rewrite tried_app, wrote_app, fmap_app, !times_app.
    assert (times FPong (snd <$> wrote w [(t, e)]) <= times FPong (tried w [(t, e)])); [|lia].
    destruct (wrote_dec w e) as [[fs ->]|Hn]; [|rewrite wrote_other by done; unfold times at 1; cbn; lia].
    rewrite wrote_one. unfold tried; cbn -[times]. rewrite decide_True by done. rewrite app_nil_r, <- list_fmap_compose.
    unfold compose; cbn. by rewrite list_fmap_id.
  - intros Hse Hsu Hqu Hpo. rewrite <- (tried_wrote o t0 h pending may w tr s Hr Hse). specialize (H2 Hse Hsu).
    unfold waiting in H2. rewrite Hqu, Hpo in H2. cbn -[times] in H2. change (times FPong []) with 0 in H2. lia.
Qed.
Print Assumptions C82_pong_per_ping.

Lemma runs_split o may s0 tr s : runs o may s0 tr s -> forall tr1 t e tr2, tr = tr1 ++ (t, e) :: tr2 ->
  exists s1 s2, runs o may s0 tr1 s1 /\ now s1 = t /\ step o s1 e s2.
Proof.
  induction 1 as [|tr s e s' Hr IH Hs|tr s t Hr IH Ht Hm]; intros tr1 t1 e1 tr2 E.
  - by destruct tr1.
  - destruct tr2 as [|x tr2 _] using rev_ind.
    + apply app_inj_tail in E as [-> [= <- <-]]. exists s, s'. done.
    + rewrite app_comm_cons, app_assoc in E. apply app_inj_tail in E as [E _]. eauto.
  - eauto.
Qed.

Lemma since_inv o may t0 h pending w tr s : runs o may (fresh t0 h pending) tr s -> Forall (fun f => heartbeat f = false) (pending w) ->
  sd_sending (get w s) = true ->
  Forall (fun x => (fst x <= sd_since (get w s))%N) (wrote w tr) /\ Forall (fun x => frames_of (snd x) <> [FPing]) (sd_queue (get w s)) /\
  (t0 <= sd_since (get w s))%N /\ (sd_since (get w s) <= now s)%N.
Proof.
  intros Hr Hp. induction Hr as [|tr s e s' Hr IH Hs|tr s t Hr IH Ht Hm]; intros Hse.
  - split_and!; [constructor| |destruct w; cbn; lia..].
    assert (pending w <> [FPing]) by (intros E; rewrite E in Hp; by inversion Hp).
    destruct w; cbn; (constructor; [done|constructor]).
  - destruct (step_side o w s e s' Hs) as [Hm Hn]. rewrite Hn.
    destruct IH as (I1 & I2 & I3 & I4); [inversion Hm; congruence|].
    destruct (wrote_dec w e) as [[fs ->]|Hw].
    + assert (sd_since (get w s') = now s) as -> by (inv_move Hm; done). rewrite wrote_app, wrote_one. split_and!; [| |lia|lia].
      * apply Forall_app. split; [eapply List.Forall_impl; [|exact I1]; cbn; lia|]. apply List.Forall_forall. intros x Hx.
        apply elem_of_list_In, elem_of_list_fmap in Hx as (f & -> & _). cbn; lia.
      * inversion Hm as [| | | | |t m q ? _ Hq Hq1 _ _ _ _ E1|? _ Hq Hq2 _ _ _ _ E1|]; subst; try (match goal with N : forall _, _ <> _ |- _ => exfalso; exact (N _ eq_refl) end).
        -- rewrite Hq in I2. by inversion I2.
        -- rewrite Hq2. constructor.
    + rewrite wrote_app, wrote_other, app_nil_r by done.
      assert (sd_since (get w s') = sd_since (get w s)) as -> by (inv_move Hm; congruence). split_and!; [done| |done..].
      inversion Hs as [v f Hse' Hhb|v tq m q Hse' Hq|v Hse' Hq Ht|v tq m q bs Hse' Hq Hbs|v bs Hse' Hq Ht Hbs|v c rest' Hr' Hd Ho|v f buf ok Hr' Hd Hf|v Hr' Hd Ht|v Hr'|v n Hsu Hpo|v|v|v]; subst;
        (destruct (decide (v = w)) as [->|Hne]; [|try (cbn zeta; destruct (sd_sending (ponged n (get v s)))); destruct v, w; done]).
      * rewrite get_put. apply Forall_app. split; [done|]. constructor; [|constructor]. cbn. intros [= ->]. done.
      * by destruct (Hw (frames_of m)).
      * by destruct (Hw [FPing]).
      * by rewrite get_put in Hse.
      * by rewrite get_put in Hse.
      * by destruct w.
      * by destruct w.
      * by destruct w.
      * by destruct w.
      * rewrite get_put. cbn zeta. case_match; [apply Forall_app; split; [done|]; constructor; [done|constructor]|done].
      * by rewrite get_put in Hse.
      * by destruct w.
      * by destruct w.
  - rewrite get_at in *. destruct (IH Hse) as (I1 & I2 & I3 & I4). cbn [now at_time]. split_and!; try done. lia.
Qed.

(** A ping is written only when nothing has been for heartbeat_interval. *)
Theorem C82_ping_after_silence :
  forall o may t0 h pending w tr1 t tr2 s,
    runs o may (fresh t0 h pending) (tr1 ++ (t, Wrote w [FPing]) :: tr2) s -> Forall (fun f => heartbeat f = false) (pending w) ->
    (t0 + o_interval (o w) <= t)%N /\ Forall (fun x => (fst x + o_interval (o w) <= t)%N) (wrote w tr1).
Proof.
  intros o may t0 h pending w tr1 t tr2 s Hr Hp. destruct (runs_split _ _ _ _ _ Hr _ _ _ _ eq_refl) as (s1 & s2 & Hr1 & Hn & Hs).
  assert (sd_sending (get w s1) = true) as Hse by (by inversion Hs).
  destruct (since_inv o may t0 h pending w tr1 s1 Hr1 Hp Hse) as (I1 & I2 & I3 & I4).
  assert (sd_since (get w s1) + o_interval (o w) <= t)%N as Hle.
  { inversion Hs as [|v tq m q Hse' Hq Ev Hm|v Hse' Hq Ht| | | | | | | | | |]; subst; [|done].
    rewrite Hq in I2. inversion I2 as [|? ? E _]. by destruct E. }
  split; [lia|]. eapply List.Forall_impl; [|exact I1]. cbn. lia.
Qed.
Print Assumptions C82_ping_after_silence.

(** C83.  The peer is declared dead only after heartbeat_timeout without a frame from it. *)
Theorem C83_timeout_means_silence :
  forall o may t0 h pending w tr1 t tr2 s,
    runs o may (fresh t0 h pending) (tr1 ++ (t, TimedOut w) :: tr2) s ->
    (last_heard w (h w) tr1 + o_timeout (o w) <= t)%N.
Proof.
  intros o may t0 h pending w tr1 t tr2 s Hr. destruct (runs_split _ _ _ _ _ Hr _ _ _ _ eq_refl) as (s1 & s2 & Hr1 & Hn & Hs).
  destruct (heard_inv o t0 h pending may w tr1 s1 Hr1) as [<- _]. inversion Hs; subst; done.
Qed.
Print Assumptions C83_timeout_means_silence.

(** And a receiver that is scheduled promptly declares it dead then: while it runs, the last frame is
    never older than heartbeat_timeout and the scheduling delay. *)
Theorem C83_silence_is_noticed :
  forall o t0 h pending w d tr s,
    runs o (receiver_prompt o w d) (fresh t0 h pending) tr s -> (t0 <= h w + o_timeout (o w) + d)%N ->
    sd_receiving (get w s) = true -> (now s <= last_heard w (h w) tr + o_timeout (o w) + d)%N.
Proof.
  intros o t0 h pending w d tr s Hr H0. 
  induction Hr as [|tr s e s' Hr IH Hs|tr s t Hr IH Ht Hm]; intros Hre.
  - destruct w; cbn; lia.
  - destruct (step_side o w s e s' Hs) as [Hmv Hn]. rewrite Hn.
    assert (runs o (receiver_prompt o w d) (fresh t0 h pending) (tr ++ [(now s, e)]) s') as Hr' by (by eapply runs_step).
    destruct (heard_inv o t0 h pending _ w _ s' Hr') as [<- _]. destruct (heard_inv o t0 h pending _ w _ s Hr) as [E _].
    inversion Hmv; subst; try congruence; try (specialize (IH ltac:(congruence)); lia).
  - rewrite get_at in Hre. specialize (Hm Hre). cbn [now at_time]. by destruct (heard_inv o t0 h pending _ w _ s Hr) as [<- _].
Qed.
Print Assumptions C83_silence_is_noticed.

(** Runs computed from a list of moves, for the examples. *)
Inductive hmove := MHand (w : who) (f : frame) | MSend (w : who) | MPing (w : who) | MRead (w : who) (n : nat) | MFrame (w : who) | MExpire (w : who) | MPong (w : who) | MTime (t : N).
Definition hmake (o : who -> node_options) (m : hmove) (s : state) : option (event * state) :=
  match m with
  | MHand w f => if sd_sending (get w s) && negb (heartbeat f) then Some (Handed w f, put w (queued (now s, SendFrame f) (get w s)) s) else None
  | MSend w => if sd_sending (get w s) then match sd_queue (get w s) with (_, m) :: q => Some (Wrote w (frames_of m), put w (sent (now s) q (bytes_of (frames_of m)) true (get w s)) s) | [] => None end else None
  | MPing w => if sd_sending (get w s) && (sd_since (get w s) + o_interval (o w) <=? now s)%N then
                 match sd_queue (get w s) with [] => Some (Wrote w [FPing], put w (sent (now s) [] (bytes_of [FPing]) true (get w s)) s) | _ => None end else None
  | MRead w n => if sd_receiving (get w s) then match fst (decode (sd_buf (get w s))) with
                 | NeedMore => let x := sd_out (get (peer w) s) in Some (Inside, put w (read_bytes (take n x) (get w s)) (put (peer w) (out_left (drop n x) (get (peer w) s)) s))
                 | _ => None end else None
  | MFrame w => if sd_receiving (get w s) then match decode (sd_buf (get w s)) with
                 | (Frame f, buf) => match f with FHello _ _ _ => None | _ => Some (Handled w f, put w (heard (now s) buf f true (get w s)) s) end | _ => None end else None
  | MExpire w => if sd_receiving (get w s) && (sd_heard (get w s) + o_timeout (o w) <=? now s)%N then
                 match fst (decode (sd_buf (get w s))) with NeedMore => Some (TimedOut w, put w (deaf (get w s)) s) | _ => None end else None
  | MPong w => if sd_supervising (get w s) then match sd_pongs (get w s) with
                 | Datatypes.S n => Some (Inside, put w (let x := ponged n (get w s) in if sd_sending x then queued (now s, SendFrame FPong) x else x) s) | _ => None end else None
  | MTime t => None
  end.
Lemma hmake_step o m s e s' : hmake o m s = Some (e, s') -> step o s e s'.
Proof.
  destruct m as [w f|w|w|w n|w|w|w|t]; cbn [hmake]; intros H.
  - destruct (sd_sending (get w s)) eqn:E1; [|done]. destruct (heartbeat f) eqn:E2; [done|]. injection H as <- <-. by constructor.
  - destruct (sd_sending (get w s)) eqn:E1; [|done]. destruct (sd_queue (get w s)) as [|[t m] q] eqn:E2; [done|]. injection H as <- <-. by econstructor.
  - destruct (sd_sending (get w s)) eqn:E1; [|done]. destruct (_ <=? _)%N eqn:E3; [|done]. destruct (sd_queue (get w s)) as [|? ?] eqn:E2; [|done]. injection H as <- <-. constructor; try done. by apply N.leb_le.
  - destruct (sd_receiving (get w s)) eqn:E1; [|done]. destruct (fst (decode (sd_buf (get w s)))) eqn:E2; try done. injection H as <- <-. apply st_read; try done. symmetry. apply take_drop.
  - destruct (sd_receiving (get w s)) eqn:E1; [|done]. destruct (decode (sd_buf (get w s))) as [[f| |] buf] eqn:E2; try done. destruct f; try done; injection H as <- <-; by constructor.
  - destruct (sd_receiving (get w s)) eqn:E1; [|done]. destruct (_ <=? _)%N eqn:E3; [|done]. destruct (fst (decode (sd_buf (get w s)))) eqn:E2; try done. injection H as <- <-. constructor; try done. by apply N.leb_le.
  - destruct (sd_supervising (get w s)) eqn:E1; [|done]. destruct (sd_pongs (get w s)) eqn:E2; [done|]. injection H as <- <-. by apply st_pong.
  - done.
Qed.
Fixpoint hplay (o : who -> node_options) (may : list (N * event) -> state -> N -> bool) (ms : list hmove) (tr : list (N * event)) (s : state) : option (list (N * event) * state) :=
  match ms with
  | [] => Some (tr, s)
  | MTime t :: ms => if (now s <=? t)%N && may tr s t then hplay o may ms tr (at_time t s) else None
  | m :: ms => match hmake o m s with Some (e, s') => hplay o may ms (tr ++ [(now s, e)]) s' | None => None end
  end.
Lemma hplay_runs o mayb (may : list (N * event) -> state -> N -> Prop) s0 ms : (forall tr s t, mayb tr s t = true -> may tr s t) -> forall tr s tr' s',
  runs o may s0 tr s -> hplay o mayb ms tr s = Some (tr', s') -> runs o may s0 tr' s'.
Proof.
  intros Hb. induction ms as [|m ms IH]; intros tr s tr' s' Hr H; cbn [hplay] in H; [by injection H as <- <-|].
  destruct m as [w f|w|w|w n|w|w|w|t]; [match type of H with match ?x with _ => _ end = _ => destruct x as [[e s1]|] eqn:E end; [|done];
    eapply IH; [|exact H]; eapply runs_step; [exact Hr|by eapply hmake_step]..|].
  destruct (now s <=? t)%N eqn:E; [|done]. destruct (mayb tr s t) eqn:E2; [|done]. cbn in H.
  eapply IH; [|exact H]. apply runs_time; [done|by apply N.leb_le|by apply Hb].
Qed.
Lemma hplay_example o mayb (may : list (N * event) -> state -> N -> Prop) s0 ms (P : list (N * event) -> state -> Prop) : (forall tr s t, mayb tr s t = true -> may tr s t) ->
  match hplay o mayb ms [] s0 with Some (tr, s) => P tr s | None => False end -> exists tr s, runs o may s0 tr s /\ P tr s.
Proof.
  intros Hb H. destruct (hplay o mayb ms [] s0) as [[tr s]|] eqn:E; [|done]. exists tr, s. split; [|done].
  eapply hplay_runs; [exact Hb|constructor|exact E].
Qed.

Definition defaults (w : who) : node_options := new_node_options.
Definition some_pending (w : who) : list frame := match w with A => [FLink true 3 4] | B => [] end.
Definition story : list hmove :=
  [MSend A; MHand A (FExit 1 2 (RCustom "boom")); MRead B 7; MRead B 30; MFrame B; MSend A; MSend B; MTime 5000; MPing A; MPing B; MRead B 100;
   MFrame B; MFrame B; MPong B; MTime 5001; MSend B; MRead A 100; MFrame A; MFrame A].
(** The hypotheses of C81 and C82 hold in a run with a pending frame, a later frame, and heartbeats. *)
Example C81_example : exists tr s, runs defaults free (fresh 0 (fun _ => 0%N) some_pending) tr s /\
  (handed A tr = [FExit 1 2 (RCustom "boom")] /\
   snd <$> got B tr = [FLink true 3 4; FExit 1 2 (RCustom "boom"); FPing] /\ payload (some_pending A ++ handed A tr) = [FLink true 3 4; FExit 1 2 (RCustom "boom")] /\
   sd_sending (get A s) = true /\ sd_queue (get A s) = [] /\ sd_out (get A s) = [] /\ fst (decode (sd_buf (get B s))) = NeedMore /\
   wrote B tr = [(5000%N, FPing); (5001%N, FPong)] /\ sd_queue (get B s) = [] /\ sd_pongs (get B s) = 0 /\ snd <$> got A tr = [FPing; FPong]).
Proof.
  apply (hplay_example _ (fun _ _ _ => true) _ _ story); [done|]. vm_compute. split_and!; reflexivity.
Qed.
Example C81_example_sendable : Forall sendable (some_pending A ++ [FExit 1 2 (RCustom "boom")]).
Proof. repeat (apply List.Forall_cons; [split_and!; [vm_compute; reflexivity..|exact I]|]). apply List.Forall_nil. Qed.

(** The hypotheses of C83 hold: the peer of [B] dies at 5000 and is declared dead at 50000. *)
Definition receiver_promptb (o : who -> node_options) (w : who) (d : N) (tr : list (N * event)) (s : state) (t : N) : bool :=
  negb (sd_receiving (get w s)) || (t <=? sd_heard (get w s) + o_timeout (o w) + d)%N.
Example C83_example : exists tr s, runs defaults (receiver_prompt defaults B 0) (fresh 0 (fun _ => 0%N) some_pending) tr s /\
  (exists tr1, tr = tr1 ++ [(50000%N, TimedOut B)] /\ last_heard B 0 tr1 = 5000%N).
Proof.
  apply (hplay_example _ (receiver_promptb defaults B 0) _ _ [MSend A; MRead B 50; MFrame B; MTime 5000; MPing A; MRead B 50; MFrame B; MTime 50000; MExpire B]).
  - unfold receiver_promptb, receiver_prompt. intros tr s t H Hr. rewrite Hr in H. cbn in H. by apply N.leb_le in H.
  - vm_compute. eexists [_; _; _; _; _; _]. split; reflexivity.
Qed.

(** C84.  Full statement: whatever options are set with the builders, if the heartbeat_interval of one
    node, the delays of its sender and of the link and the difference between the start of the two
    ends together are less than the heartbeat_timeout of the other node, that node never declares the
    connection dead while the sender runs. *)
Definition healthy (bs : who -> list node_builder) (w : who) (d l k : N) : Prop :=
  forall t0 h pending tr s, let o v := node_built (bs v) in
    runs o (fun tr s t => sender_prompt o (peer w) d tr s t /\ link_prompt w l tr s t) (fresh t0 h pending) tr s ->
    Forall sendable (pending (peer w) ++ handed (peer w) tr) -> sd_sending (get (peer w) s) = true ->
    (h w <= t0)%N -> (t0 <= h w + k)%N -> forall t, (t, TimedOut w) ∉ tr.
Definition C84_statement : Prop := forall bs w d l k,
  (last_of interval_set 5000 (bs (peer w)) + 2 * d + l + k < last_of timeout_set 45000 (bs w))%N -> healthy bs w d l k.

(** It holds with 45 s in place of the heartbeat_timeout that was asked for (C63: no builder sets it). *)
Theorem C84_healthy_connection_stays_partial :
  forall bs w d l k, (last_of interval_set 5000 (bs (peer w)) + 2 * d + l + k < 45000)%N -> healthy bs w d l k.
Proof.
  intros bs w d l k Hlt t0 h pending tr s o Hr Hg Hse H1 H2.
  destruct (C63_partial (bs (peer w))) as (_ & _ & _ & Ei & _). destruct (C63_partial (bs w)) as (_ & _ & _ & _ & Et).
  eapply (timely_run o t0 h pending w d l k tr s Hr Hg Hse H1 H2). unfold o. rewrite Ei, Et. done.
Qed.
Print Assumptions C84_healthy_connection_stays_partial.

(** Violated by the code: with heartbeat_interval(60 s) and heartbeat_timeout(200 s) on both nodes an
    idle connection without any delays is declared dead after 45 s. *)
Definition slow (w : who) : list node_builder := [BInterval 60000; BHeartbeatTimeout 200000].
Definition slow_options (w : who) : node_options := node_built (slow w).
Definition prompt_b (o : who -> node_options) (w : who) (d : N) (tr : list (N * event)) (s : state) (t : N) : bool :=
  (t <=? match sd_queue (get w s) with
        | [] => sd_since (get w s) + o_interval (o w)
        | q :: _ => N.min (sd_since (get w s) + o_interval (o w)) (N.max (sd_since (get w s)) (fst q))
        end + d)%N.
Definition no_flight (w : who) (tr : list (N * event)) : bool := Nat.leb (length (wrote (peer w) tr)) (length (got w tr)).
Lemma prompt_b_ok o w tr s t : prompt_b o (peer w) 0 tr s t && no_flight w tr = true -> sender_prompt o (peer w) 0 tr s t /\ link_prompt w 0 tr s t.
Proof.
  intros [H1 H2]%andb_true_iff. unfold prompt_b, no_flight in *. apply N.leb_le in H1. apply Nat.leb_le in H2. split.
  - intros _. exact H1.
  - intros _ n u f Hu Hn. apply lookup_lt_Some in Hu. lia.
Qed.
Theorem C84_healthy_connection_stays_refuted : ~ C84_statement.
Proof.
  intros H. assert (healthy slow B 0 0 0) as Hh by (apply H; vm_compute; reflexivity). clear H.
  destruct (hplay_example slow_options (fun tr s t => prompt_b slow_options A 0 tr s t && no_flight B tr)
    (fun tr s t => sender_prompt slow_options A 0 tr s t /\ link_prompt B 0 tr s t) (fresh 0 (fun _ => 0%N) (fun _ => [])) [MSend A; MSend B; MTime 45000; MExpire B]
    (fun tr s => tr = [(0%N, Wrote A []); (0%N, Wrote B []); (45000%N, TimedOut B)] /\ sd_sending (get A s) = true)) as (tr & s & Hr & -> & Hse).
  - intros tr s t. apply (prompt_b_ok slow_options B).
  - vm_compute. auto.
  - apply (Hh 0%N (fun _ => 0%N) (fun _ => []) _ s Hr) with (t := 45000%N); [constructor|exact Hse|reflexivity|reflexivity|].
    apply elem_of_list_In. cbn. auto.
Qed.
Print Assumptions C84_healthy_connection_stays_refuted.

(** The hypotheses of the partial theorem hold with the default options and delays of up to 10 s: a run
    of 100 s with heartbeats only. *)
Definition idle_for (n : nat) : list hmove := concat (map (fun i => let t := (5000 * N.of_nat i)%N in [MTime t; MPing A; MRead B 50; MFrame B]) (seq 1 n)).
Example C84_example : (last_of interval_set 5000 [] + 2 * 10000 + 10000 + 9999 < 45000)%N /\
  exists tr s, runs defaults (fun tr s t => sender_prompt defaults A 0 tr s t /\ link_prompt B 0 tr s t) (fresh 0 (fun _ => 0%N) (fun _ => [])) tr s /\
    now s = 100000%N /\ sd_receiving (get B s) = true /\ sd_sending (get A s) = true /\ length (got B tr) = 20.
Proof.
  split; [vm_compute; reflexivity|].
  apply (hplay_example defaults (fun tr s t => prompt_b defaults A 0 tr s t && no_flight B tr) _ _ (MSend A :: MSend B :: idle_for 20)).
  - intros tr s t. apply (prompt_b_ok defaults B).
  - vm_compute. auto.
Qed.
