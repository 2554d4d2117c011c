(** C79: exit signals of a process come before the notices of its end. *)
From stdpp Require Import base list gmap numbers strings countable sorting relations.
From Coq Require Import Lia.
From Verif Require Import Prog ProgProofs ProgInv Types Mailbox World ProcApi NodeApi Api Steps Hist Labels Play SchedSpec SchedProofs SchedProps
  Path TruthSpec TruthProofs TruthProps OrderSpec OrderProofs.

(** Arrivals are only ever added at the end. *)
Lemma does_log S a w : w_log w `prefix_of` w_log (does S a w).
Proof.
  assert (forall i x w, w_log w `prefix_of` w_log (push i x w)) as Hpush.
  { intros i x w0. unfold push. destruct (w_loc w0 !! i); [|done]. cbn. by eexists. }
  assert (forall p f y w, w_log w `prefix_of` w_log (exit_op p f y w)) as Hexit.
  { intros p f y w0. unfold exit_op. repeat case_match; try done; cbn; apply Hpush. }
  destruct a; cbn [does]; try done; try apply Hpush; try apply Hexit.
  - unfold receive_op. destruct (w_loc w !! me) as [l|]; [|done]. by destruct (select S T f b l).
  - unfold alias_take_op. repeat case_match; done.
  - unfold send_to. destruct (w_regs w !! i); [apply Hpush|done].
  - unfold node_register_op, spawn_op. repeat case_match; simplify_eq; done.
  - unfold send_frame, hand_out. repeat case_match; done.
  - unfold register_op. repeat case_match; done.
  - unfold exit_linked_op. repeat case_match; try done; apply Hpush.
  - unfold node_start_op, spawn_op. repeat case_match; simplify_eq; done.
  - unfold node_disconnect_op. repeat case_match; try done.
    change (w_log w `prefix_of` w_log (exit_op p0 p RKill (up_pend (delete n) w))).
    exact (Hexit p0 p RKill (up_pend (delete n) w)).
  - unfold node_accept_op. case_match; [|done]. case_match; [|done].
    match goal with |- context [if bool_decide _ then ?x else w] => set (w1 := if bool_decide (n_state n1 = Pending) then x else w) end.
    assert (w_log w `prefix_of` w_log w1) as H1.
    { unfold w1. repeat case_match; try done. all: match goal with |- context [exit_op ?a ?b ?c ?d] => exact (Hexit a b c d) end. }
    clearbody w1. case_match; done.
  - unfold node_workers_op, hand_out. repeat case_match; done.
  - unfold sup_down_op. repeat case_match; done.
Qed.
Lemma reach_log S ok s s' : Forall (guar (fun w w' => w_log w `prefix_of` w_log w')) (s_threads s) -> reach (calls_of S ok) s s' ->
  w_log (s_world s) `prefix_of` w_log (s_world s').
Proof.
  set (G := fun w w' : world => w_log w `prefix_of` w_log w'). intros Hts R.
  assert (forall p, calls_of S ok p -> guar G p) as Hg.
  { intros p (c & _ & ->). eapply guar_mono; [|apply call_fp]. intros x y (a & _ & ->). apply does_log. }
  enough (G (s_world s) (s_world s') /\ Forall (guar G) (s_threads s')) by tauto.
  refine (rtc_ind_r (fun s' => G (s_world s) (s_world s') /\ Forall (guar G) (s_threads s')) s _ _ s' R); [split; [unfold G; done|done]|].
  intros y z _ Hstep [Hy1 Hy2]. destruct Hstep as [i y z Hi|p y Hp]; [|split; [done|]; apply Forall_app; split; [done|constructor; [by apply Hg|constructor]]].
  unfold tick in Hi. destruct (s_threads y !! i) as [[| |g f k]|] eqn:Et; try discriminate. destruct (g (s_world y)) eqn:Eg; inversion Hi; subst; cbn.
  pose proof (Forall_lookup_1 _ _ _ _ Hy2 Et) as Hk. cbn in Hk. destruct (Hk _ Eg) as [H1 H2].
  split; [|by apply Forall_insert]. unfold G in *. by etrans.
Qed.
Lemma reach_guards S ok s : reach (calls_of S ok) (Sys world0 []) s -> Forall (guar (fun w w' => w_log w `prefix_of` w_log w')) (s_threads s).
Proof.
  set (G := fun w w' : world => w_log w `prefix_of` w_log w'). intros R.
  refine (rtc_ind_r (fun s => Forall (guar G) (s_threads s)) (Sys world0 []) _ _ s R); [constructor|].
  intros y z _ Hstep Hy. destruct Hstep as [i y z Hi|p y (c & _ & ->)].
  - unfold tick in Hi. destruct (s_threads y !! i) as [[| |g f k]|] eqn:Et; try discriminate. destruct (g (s_world y)) eqn:Eg; inversion Hi; subst; cbn.
    apply Forall_insert; [done|]. pose proof (Forall_lookup_1 _ _ _ _ Hy Et) as Hk. cbn in Hk. by destruct (Hk _ Eg).
  - apply Forall_app; split; [done|constructor; [|constructor]]. eapply guar_mono; [|apply call_fp]. intros x z (a & _ & ->). apply does_log.
Qed.

(** ** C79.  In every schedule of any number of API calls in which [p] does not itself call Process::exit on
    [me] and [me] does not call Process::link on [p]: among everything that has ever arrived in a mailbox, no
    exit signal of [p] for [me] comes after a notice (to [me] or anybody else) of [p]'s end. *)
Theorem C79_exits_before_notices S p me s :
  reach (calls_of S (no_late_link p me)) (Sys world0 []) s -> exits_first p me (w_log (s_world s)).
Proof. apply reach_first. Qed.
Print Assumptions C79_exits_before_notices.
(** So whoever has been told how [p] ended has all its exit signals already: none arrives later. *)
Theorem C79_none_later S p me s s' :
  reach (calls_of S (no_late_link p me)) (Sys world0 []) s -> reach (calls_of S (no_late_link p me)) s s' ->
  Exists (end_notice p) (w_log (s_world s)) ->
  exists late, w_log (s_world s') = w_log (s_world s) ++ late /\ Forall (fun x => ~ exit_signal p me x) late.
Proof.
  intros H0 H1 Hn. destruct (reach_log S _ s s' (reach_guards S _ s H0) H1) as [late E]. exists late. split; [done|].
  assert (exits_first p me (w_log (s_world s'))) as Hf by (apply (reach_first S); by etrans).
  apply Exists_exists in Hn as (x & Hx & Hnx). apply elem_of_list_lookup in Hx as [i Hi].
  apply Forall_lookup. intros j y Hj Hy. rewrite E in Hf.
  assert (i < length (w_log (s_world s))) as Hlt by (by apply lookup_lt_Some in Hi).
  specialize (Hf i (length (w_log (s_world s)) + j) x y). rewrite lookup_app_l in Hf by done. rewrite lookup_app_r in Hf by lia.
  replace (length (w_log (s_world s)) + j - length (w_log (s_world s))) with j in Hf by lia. specialize (Hf Hi Hj Hnx Hy). lia.
Qed.
Print Assumptions C79_none_later.

(** Both kinds of message do arrive: 1 traps exits, spawns 2 linked and monitored, and 2 crashes. *)
Example C79_example : exists s, reach (calls_of S0 (no_late_link 2 1)) (Sys world0 []) s /\
  (Exists (end_notice 2) (w_log (s_world s)) /\ Exists (exit_signal 2 1) (w_log (s_world s))).
Proof.
  apply (seq_reach S0 _ [CSpawn 0 false false; CSetFlags 1 true; CSpawn 1 true false; CMonitor 1 (DPid (PLocal 2)); CCrash 2 (RCustom "boom")]
    (fun w => Exists (end_notice 2) (w_log w) /\ Exists (exit_signal 2 1) (w_log w))).
  - repeat constructor.
  - vm_compute. split.
    + right. left. by eexists _, _.
    + left. by eexists.
Qed.
(** The condition on [me]'s own calls of link is needed: linking to a process that has ended brings an exit signal after the notice. *)
Example C79_late_link_refuted : exists s, reachable S0 s /\ ~ exits_first 2 1 (w_log (s_world s)).
Proof.
  destruct (seq_reach S0 (fun _ => True) [CSpawn 0 false false; CSetFlags 1 true; CSpawn 0 false false; CMonitor 1 (DPid (PLocal 2)); CCrash 2 (RCustom "boom"); CLink 1 (PLocal 2)]
    (fun w => ~ exits_first 2 1 (w_log w))) as (s & Hr & Hs).
  - by apply Forall_true.
  - vm_compute. intros H. specialize (H 0 1 _ _ eq_refl eq_refl).
    assert (1 < 0); [|lia]. apply H; [by eexists _, _|by eexists].
  - exists s. split; [|done]. destruct (reach_run _ _ _ Hr) as (ss & Hrun & Hl). apply run_any in Hrun.
    rewrite last_lookup in Hl. by eapply run_reach_all.
Qed.
