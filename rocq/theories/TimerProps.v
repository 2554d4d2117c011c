(** C31: timers. *)
From stdpp Require Import base list gmap numbers strings countable sorting relations.
From Coq Require Import Lia.
From Verif Require Import Prog ProgProofs ProgInv Types Mailbox World ProcApi NodeApi Api Steps Hist Play Labels SchedSpec SchedProofs ProcSpec SendSpec SendProofs SchedProps TimerSpec TimerProofs.

(** Where every timer theorem starts: the timer was made by a send_after that ran by itself; [v] is
    its message, which no other timer carries. *)
Definition timer_made (S : serde) (w : world) (ds : dests) (v : value) (d : N) (w1 : world) (k : N) : Prop :=
  run (call_prog S (CSendAfter ds v d)) w = Done w1 (VRef (RLocal k)) /\ timers_carry_others S v k w.

Lemma made_world S w ds v d w1 k : timer_made S w ds v d w1 k ->
  k = w_next_ref w /\ w1 = up_timers (<[k := (w_now w + d)%N]>) (up_tasks (<[k := Task (w_now w + d) ds v true]>) (up_next_ref N.succ w)).
Proof. intros [E _]. cbn in E. injection E as <- <-. done. Qed.
Lemma made_frz S w ds v d w1 k md : md <> MDead -> timer_made S w ds v d w1 k -> frz S v k (w_now w + d) ds md (carried S v w) w1.
Proof.
  intros Hm Hw. destruct (made_world _ _ _ _ _ _ _ Hw) as [-> ->]. destruct Hw as [_ Ho]. constructor; cbn.
  - lia.
  - intros i t Hi. cbn. rewrite lookup_insert_ne by done. by apply Ho.
  - done.
  - intros _. by rewrite lookup_insert.
  - by rewrite lookup_insert, decide_False.
  - done.
Qed.
Lemma run_read r w : run (read_timer r) w = Done w (match w_timers w !! ref_id r with
    | Some due => Some (if decide (due <= w_now w)%N then 0%N else (due - w_now w)%N) | None => None end).
Proof. reflexivity. Qed.

(** Not before its time, and read_timer tells how long still: in every schedule without a
    cancellation. *)
Theorem C31_not_before :
  forall S w ds v d w1 k s, timer_made S w ds v d w1 k ->
    reach (calls_of S (fun c => carries_others S v c /\ ~ cancels k c)) (Sys w1 []) s ->
    (w_now (s_world s) < w_now w + d)%N ->
    carried S v (s_world s) = carried S v w /\
    run (read_timer (RLocal k)) (s_world s) = Done (s_world s) (Some (w_now w + d - w_now (s_world s))%N).
Proof.
  intros S w ds v d w1 k s Hw Hr Hn.
  pose proof (made_frz _ _ _ _ _ _ _ MBefore ltac:(done) Hw) as Hf.
  assert (frz S v k (w_now w + d) ds MBefore (carried S v w) (s_world s)) as [ ].
  { refine (frz_reach _ _ _ _ _ _ _ w1 s Hf _ _); [|by intros _].
    eapply rtc_subrel; [|exact Hr]. intros s1 s2 Hs. destruct Hs as [i s1 s2 Ht|p s1 (c & [Hc Hx] & ->)]; [by eapply step_tick|].
    apply step_call. exists c. split; [|done]. by repeat split. }
  split; [done|]. rewrite run_read. cbn [ref_id]. rewrite fz_timer, decide_False by done.
  rewrite decide_False by lia. done.
Qed.
Print Assumptions C31_not_before.

(** It stays pending until its task wakes up: then, if it is due, the wake-up goes through, performs
    exactly the send (SendSpec.v) and the timer is gone; before that it cannot happen. *)
Theorem C31_pending_then_sends :
  forall S w ds v d w1 k s, timer_made S w ds v d w1 k ->
    reach (calls_of S (fun c => carries_others S v c /\ ~ cancels k c /\ ~ fires k c)) (Sys w1 []) s ->
    carried S v (s_world s) = carried S v w /\
    run (read_timer (RLocal k)) (s_world s) = Done (s_world s) (Some (w_now w + d - w_now (s_world s))%N) /\
    ((w_now (s_world s) < w_now w + d)%N -> run (call_prog S (CFire k)) (s_world s) = Blocked (s_world s)) /\
    ((w_now w + d <= w_now (s_world s))%N ->
       exists w2 w3, run (call_prog S (CFire k)) (s_world s) = Done w3 VUnit /\
         sends S v (dests_list ds) (up_tasks (alter kill_task k) (s_world s)) w2 /\
         w3 = up_tasks (alter kill_task k) (up_timers (delete k) w2) /\
         run (read_timer (RLocal k)) w3 = Done w3 None).
Proof.
  intros S w ds v d w1 k s Hw Hr.
  pose proof (made_frz _ _ _ _ _ _ _ MNoFire ltac:(done) Hw) as Hf.
  assert (frz S v k (w_now w + d) ds MNoFire (carried S v w) (s_world s)) as [ ].
  { refine (frz_reach _ _ _ _ _ _ _ w1 s Hf _ _); [|by intros ?].
    eapply rtc_subrel; [|exact Hr]. intros s1 s2 Hs. destruct Hs as [i s1 s2 Ht|p s1 (c & (Hc & Hx & Hx') & ->)]; [by eapply step_tick|].
    apply step_call. exists c. split; [|done]. by repeat split. }
  specialize (fz_live ltac:(done)).
  split; [done|]. split; [|split].
  - rewrite run_read. cbn [ref_id]. rewrite fz_timer, decide_False by done.
    destruct (decide (w_now w + d <= w_now (s_world s))%N); [|done].
    by replace (w_now w + d - w_now (s_world s))%N with 0%N by lia.
  - intros Hn. cbn [call_prog]. unfold ret_as. rewrite run_bind. unfold timer_fire. rewrite run_bind. cbn [run].
    rewrite fz_live. cbn. rewrite bool_decide_false by lia. done.
  - intros Hn. destruct (run_send S v ds (up_tasks (alter kill_task k) (s_world s))) as (w2 & E & Hs).
    exists w2. cbn [call_prog]. unfold ret_as. rewrite run_bind. unfold timer_fire. rewrite run_bind. cbn [run].
    rewrite fz_live. cbn [t_live t_due andb]. rewrite bool_decide_true by lia. cbn [run t_dests t_val].
    change (fun t => Task (t_due t) (t_dests t) (t_val t) false) with kill_task.
    rewrite run_bind, E. unfold destroy_timer. rewrite run_bind, run_atom. cbn [fst snd ref_id].
    assert (w_timers w2 !! k = Some (w_now w + d)%N) as Et.
    { rewrite (sn_timers _ _ _ _ _ Hs). cbn. rewrite fz_timer. by rewrite decide_False. }
    rewrite Et, run_modify. cbn [run]. eexists. split; [reflexivity|]. split; [exact Hs|]. split; [reflexivity|].
    rewrite run_read. cbn. by rewrite lookup_delete.
Qed.
Print Assumptions C31_pending_then_sends.

(** A timer whose task is not live any more and that is not in the table: never heard of again. *)
Lemma dead_for_good S v k w s : (k < w_next_ref w)%N -> timers_carry_others S v k w ->
  (forall t, w_tasks w !! k = Some t -> t_live t = false) -> w_timers w !! k = None ->
  reach (calls_of S (carries_others S v)) (Sys w []) s ->
  carried S v (s_world s) = carried S v w /\ run (read_timer (RLocal k)) (s_world s) = Done (s_world s) None.
Proof.
  intros H1 H2 H3 H4 Hr.
  assert (frz S v k 0 (DsMany []) MDead (carried S v w) w) as Hf by (by constructor).
  assert (frz S v k 0 (DsMany []) MDead (carried S v w) (s_world s)) as [ ].
  { refine (frz_reach _ _ _ _ _ _ _ w s Hf _ _); [|by intros ?].
    eapply rtc_subrel; [|exact Hr]. intros s1 s2 Hs. destruct Hs as [i s1 s2 Ht|p s1 (c & Hc & ->)]; [by eapply step_tick|].
    apply step_call. exists c. split; [|done]. by repeat split. }
  split; [done|]. rewrite run_read. cbn [ref_id]. by rewrite fz_timer, decide_True.
Qed.

(** Cancelled (by a call that does not overlap with the wake-up): the message is not delivered in any
    schedule after that, and read_timer says None. *)
Theorem C31_cancelled_is_never_delivered :
  forall S w ds v d w1 k s w2 s', timer_made S w ds v d w1 k ->
    reach (calls_of S (fun c => carries_others S v c /\ ~ cancels k c /\ ~ fires k c)) (Sys w1 []) s ->
    run (call_prog S (CCancel (RLocal k))) (s_world s) = Done w2 VUnit ->
    reach (calls_of S (carries_others S v)) (Sys w2 []) s' ->
    carried S v (s_world s') = carried S v w /\ run (read_timer (RLocal k)) (s_world s') = Done (s_world s') None.
Proof.
  intros S w ds v d w1 k s w2 s' Hw Hr E Hr'.
  pose proof (made_frz _ _ _ _ _ _ _ MNoFire ltac:(done) Hw) as Hf.
  assert (frz S v k (w_now w + d) ds MNoFire (carried S v w) (s_world s)) as [ ].
  { refine (frz_reach _ _ _ _ _ _ _ w1 s Hf _ _); [|by intros ?].
    eapply rtc_subrel; [|exact Hr]. intros s1 s2 Hs. destruct Hs as [i s1 s2 Ht|p s1 (c & (Hc & Hx & Hx') & ->)]; [by eapply step_tick|].
    apply step_call. exists c. split; [|done]. by repeat split. }
  specialize (fz_live ltac:(done)). rewrite decide_False in fz_timer by done.
  assert (w2 = up_tasks (alter kill_task k) (up_timers (delete k) (s_world s))) as ->.
  { cbn [call_prog] in E. unfold ret_as, cancel_timer, destroy_timer in E. rewrite run_bind, run_bind, run_atom in E.
    cbn [fst snd ref_id] in E. rewrite fz_timer, run_modify in E. cbn [run] in E. by injection E as <-. }
  rewrite <- fz_car. refine (dead_for_good _ _ _ _ _ _ _ _ _ Hr').
  - exact fz_next.
  - intros i t Hi. cbn. rewrite lookup_alter_ne by done. by apply fz_other.
  - intros t. cbn. rewrite lookup_alter, fz_live. by intros [= <-].
  - cbn. apply lookup_delete.
Qed.
Print Assumptions C31_cancelled_is_never_delivered.

(** Once: after the wake-up that sent it, no further delivery and no timer any more. *)
Theorem C31_once_fired_never_again :
  forall S w ds v d w1 k s w2 s', timer_made S w ds v d w1 k ->
    reach (calls_of S (fun c => carries_others S v c /\ ~ cancels k c /\ ~ fires k c)) (Sys w1 []) s ->
    run (call_prog S (CFire k)) (s_world s) = Done w2 VUnit ->
    reach (calls_of S (carries_others S v)) (Sys w2 []) s' ->
    carried S v (s_world s') = carried S v w2 /\ run (read_timer (RLocal k)) (s_world s') = Done (s_world s') None.
Proof.
  intros S w ds v d w1 k s w2 s' Hw Hr E Hr'.
  pose proof (made_frz _ _ _ _ _ _ _ MNoFire ltac:(done) Hw) as Hf.
  assert (frz S v k (w_now w + d) ds MNoFire (carried S v w) (s_world s)) as [ ].
  { refine (frz_reach _ _ _ _ _ _ _ w1 s Hf _ _); [|by intros ?].
    eapply rtc_subrel; [|exact Hr]. intros s1 s2 Hs. destruct Hs as [i s1 s2 Ht|p s1 (c & (Hc & Hx & Hx') & ->)]; [by eapply step_tick|].
    apply step_call. exists c. split; [|done]. by repeat split. }
  destruct (C31_pending_then_sends S w ds v d w1 k s Hw Hr) as (_ & _ & Hb & Hs).
  destruct (decide (w_now (s_world s) < w_now w + d)%N) as [Hn|Hn]; [rewrite Hb in E by done; discriminate|].
  destruct Hs as (u & w3 & E3 & Hs & -> & Hrd); [lia|]. rewrite E in E3. injection E3 as ->.
  refine (dead_for_good _ _ _ _ _ _ _ _ _ Hr').
  - cbn. rewrite (sn_next_ref _ _ _ _ _ Hs). exact fz_next.
  - intros i t Hi. cbn. rewrite lookup_alter_ne by done. rewrite (sn_tasks _ _ _ _ _ Hs). cbn.
    rewrite lookup_alter_ne by done. by apply fz_other.
  - intros t. cbn. rewrite lookup_alter, (sn_tasks _ _ _ _ _ Hs). cbn. rewrite lookup_alter.
    destruct (w_tasks (s_world s) !! k); cbn; [|done]. by intros [= <-].
  - cbn. apply lookup_delete.
Qed.
Print Assumptions C31_once_fired_never_again.

(** At most once per local destination, in every schedule whatsoever (cancellations and wake-ups of
    the same timer included, overlapping in any way). *)
Theorem C31_at_most_once :
  forall S w ds v d w1 k s, timer_made S w ds v d w1 k ->
    reach (calls_of S (carries_others S v)) (Sys w1 []) s ->
    length (carried S v (s_world s)) <= length (carried S v w) + local_dests ds.
Proof.
  intros S w ds v d w1 k s Hw Hr. destruct (made_world _ _ _ _ _ _ _ Hw) as [Ek ->]. destruct Hw as [_ Ho].
  etrans; [eapply (tm_reach S v k ds); [|exact Hr]|].
  - constructor; cbn.
    + lia.
    + intros i t Hi. cbn. rewrite lookup_insert_ne by done. by apply Ho.
    + intros t. rewrite lookup_insert. by intros [= <-].
  - unfold live_task, carried; cbn. rewrite lookup_insert. cbn. lia.
Qed.
Print Assumptions C31_at_most_once.

(** ** What does not hold *)
(** "After cancel_timer has returned the message is not delivered any more", for every schedule. *)
Definition C31_cancel_statement (S : serde) : Prop :=
  forall w ds v d w1 k s s1 s2, timer_made S w ds v d w1 k ->
    reach (calls_of S (carries_others S v)) (Sys w1 []) s ->
    reach (calls_of S (carries_others S v)) (Sys (s_world s) (s_threads s ++ [call_prog S (CCancel (RLocal k))])) s1 ->
    s_threads s1 !! length (s_threads s) = Some (Ret VUnit) ->
    reach (calls_of S (carries_others S v)) s1 s2 ->
    carried S v (s_world s2) = carried S v (s_world s1).
(** The task is past its sleep (so that abort has no effect) when cancel_timer removes the entry. *)
Definition sys0 (ws : world * list call) : sys world val := Sys (fst ws) (map (call_prog S0) (snd ws)).
Definition one_process : world := out_world (run (call_prog S0 (CSpawn 0 false false)) world0).
Theorem C31_cancel_refuted : ~ C31_cancel_statement S0.
Proof.
  intros H.
  set (v := Val 0 7). set (ds := DsOne (DPid (PLocal 1))).
  set (w1 := out_world (run (call_prog S0 (CSendAfter ds v 0)) one_process)).
  assert (timer_made S0 one_process ds v 0 w1 1) as Hm.
  { split; [by vm_compute|]. intros i t _. vm_compute. done. }
  assert (match exec [0] (Sys w1 [call_prog S0 (CFire 1)]) with
    | Some s => match exec [1; 1] (Sys (s_world s) (s_threads s ++ [call_prog S0 (CCancel (RLocal 1))])) with
      | Some s1 => match exec [0] s1 with
        | Some s2 => s_threads s1 !! length (s_threads s) = Some (Ret VUnit) /\
                     length (carried S0 v (s_world s2)) = 1 /\ length (carried S0 v (s_world s1)) = 0
        | None => False end | None => False end | None => False end) as Hx by (vm_compute; auto).
  destruct (exec [0] (Sys w1 _)) as [s|] eqn:E; [|done].
  destruct (exec [1; 1] _) as [s1|] eqn:E1; [|done].
  destruct (exec [0] s1) as [s2|] eqn:E2; [|done]. destruct Hx as (Ht & L2 & L1).
  assert (carried S0 v (s_world s2) = carried S0 v (s_world s1)) as Hc.
  { eapply (H one_process ds v 0%N w1 1%N s s1 s2 Hm).
    - eapply rtc_l; [|eapply exec_reach; exact E].
      apply (step_call (calls_of S0 (carries_others S0 v)) (call_prog S0 (CFire 1)) (Sys w1 [])). exists (CFire 1). done.
    - eapply exec_reach; exact E1.
    - exact Ht.
    - eapply exec_reach; exact E2. }
  rewrite Hc in L2. lia.
Qed.
Print Assumptions C31_cancel_refuted.

(** "read_timer returns None once the timer has fired", for every schedule. *)
Definition C31_read_statement (S : serde) : Prop :=
  forall s i k, reachable S s -> s_threads s !! i = Some (Ret (VRef (RLocal k))) ->
    (exists t, w_tasks (s_world s) !! k = Some t /\ t_live t = false) ->
    Forall (fun p => exists x, p = Ret x) (s_threads s) ->
    run (read_timer (RLocal k)) (s_world s) = Done (s_world s) None.
(** The task finishes between its creation and its entry in the table: the entry stays for good. *)
Theorem C31_read_refuted : ~ C31_read_statement S0.
Proof.
  intros H.
  assert (exists s, reachable S0 s /\ (s_threads s = [Ret (VRef (RLocal 1)); Ret VUnit] /\
    w_tasks (s_world s) !! 1%N = Some (Task 0 (DsMany []) (Val 0 7) false) /\
    w_timers (s_world s) !! 1%N = Some 0%N)) as (s & Hr & Et & Ek & Er).
  { apply (sched_some S0 _ [CSendAfter (DsMany []) (Val 0 7) 0; CFire 1] [0; 0; 1; 1; 0]). vm_compute. auto. }
  specialize (H s 0 1%N Hr). rewrite Et in H. specialize (H eq_refl).
  rewrite run_read in H. cbn [ref_id] in H. rewrite Er in H.
  assert (Done (R := option N) (s_world s) (Some (if decide (0 <= w_now (s_world s))%N then 0%N else (0 - w_now (s_world s))%N)) = Done (s_world s) None) as Hx.
  { apply H; [eexists; split; [exact Ek|done]|]. repeat constructor; eauto. }
  discriminate.
Qed.
Print Assumptions C31_read_refuted.

(** A timer of 2 for a process: after one tick it is pending with 1 left, after two it fires. *)
Example C31_example :
  exists w w1, timer_made S0 one_process (DsOne (DPid (PLocal 1))) (Val 0 7) 2 w1 1 /\ w = one_process /\
    match play S0 [CTick; CReadTimer (RLocal 1); CTick; CFire 1] w1 with
    | Some w2 => (l_chan <$> w_loc w2 !! 1%N) = Some [IUserLocal (Val 0 7)] /\ w_timers w2 !! 1%N = None
    | None => False end.
Proof.
  exists one_process. eexists. split; [|split; [reflexivity|]].
  - split; [by vm_compute|]. intros i t _. vm_compute. done.
  - vm_compute. auto.
Qed.
