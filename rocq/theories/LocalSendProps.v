(** C92: [Local] objects. *)
From stdpp Require Import base list gmap numbers strings countable sorting.
From Coq Require Import Lia.
From Verif Require Import Prog ProgProofs ProgInv Types Mailbox MailboxSpec World ProcApi NodeApi Api Steps Hist Labels Play SchedSpec SchedProofs SchedProps ProcSpec SendSpec SendProofs SendProps
  OriginSpec Path TruthProps LocalSend.

(** The same steps, the same results. *)
Fixpoint same {W R} (p q : prog W R) : Prop :=
  match p, q with
  | Ret a, Ret b => a = b
  | Panic m, Panic n => m = n
  | Atom g f k, Atom g' f' k' => g = g' /\ f = f' /\ forall w, same (k w) (k' w)
  | _, _ => False
  end.
Lemma same_refl {W R} (p : prog W R) : same p p.
Proof. induction p; cbn; auto. Qed.
Lemma same_bind {W A B} (p : prog W A) (q q' : A -> prog W B) : (forall a, same (q a) (q' a)) -> same (bind p q) (bind p q').
Proof. intros H. induction p; cbn; auto. Qed.
Lemma same_bind2 {W A B} (p p' : prog W A) (q q' : A -> prog W B) : same p p' -> (forall a, same (q a) (q' a)) -> same (bind p q) (bind p' q').
Proof.
  intros Hp H. revert p' Hp. induction p as [a|m|g f k IH]; intros [a'|m'|g' f' k'] Hp; cbn in *; try done; [subst; apply H|].
  destruct Hp as (-> & -> & Hp). auto.
Qed.
Lemma same_run {W R} (p q : prog W R) w : same p q -> run p w = run q w.
Proof.
  revert q w. induction p as [a|m|g f k IH]; intros [a'|m'|g' f' k'] w H; cbn in *; try done; [by subst|by subst|].
  destruct H as (-> & -> & H). destruct (g' w); [by apply IH|done].
Qed.
(** A program that never returns: it panics, or waits for ever. *)
Fixpoint no_return {W R} (p : prog W R) : Prop :=
  match p with Ret _ => False | Panic _ => True | Atom g f k => forall w, no_return (k w) end.
Lemma no_return_bind {W A B} (p : prog W A) (q : A -> prog W B) : no_return p -> no_return (bind p q).
Proof. induction p; cbn; auto; done. Qed.
Lemma no_return_bind2 {W A B} (p : prog W A) (q : A -> prog W B) : (forall a, no_return (q a)) -> no_return (bind p q).
Proof. intros H. induction p; cbn; auto. Qed.

(** Nothing has been handed to anybody: mailboxes, aliases and the frames for other nodes are as they were. *)
Definition nothing_sent (w w' : world) : Prop :=
  w_loc w' = w_loc w /\ w_log w' = w_log w /\ w_aliases w' = w_aliases w /\ w_out w' = w_out w /\ w_pend w' = w_pend w.

Section props.
  Context (S : serde) (can : value -> bool).
  (** Messages that can be serialised: what was proved of [send] holds. *)
  Lemma lsend_loop_can v l first rem : can v = true -> same (lsend_loop S can v l first rem) (send_loop S v l first rem).
  Proof.
    intros Hv. revert first rem. induction l as [|d l IH]; intros first rem; cbn; [done|].
    destruct (dest_is_local d).
    - destruct first; [|apply IH]. unfold serialized. rewrite Hv. cbn. apply same_bind. intros _. apply IH.
    - apply same_bind. intros t. unfold serialized. rewrite Hv. cbn. apply IH.
  Qed.
  Lemma lsend_can ds v : can v = true -> same (lsend S can ds v) (send S ds v).
  Proof.
    intros Hv. assert (forall d, same (lsend_one S can d v) (send_one S d v)) as H1.
    { intros d. unfold lsend_one, send_one. destruct (dest_is_local d); [apply same_refl|]. unfold serialized. rewrite Hv. cbn. apply same_refl. }
    destruct ds as [d|l]; cbn [lsend send]; [apply H1|]. apply same_bind2; [by apply lsend_loop_can|]. intros [o rem]. cbn.
    apply same_bind2; [destruct o; [apply H1|done]|]. intros _. apply same_refl.
  Qed.
  Lemma target_quiet d : dest_is_local d = false -> guar nothing_sent (remote_target d).
  Proof.
    destruct d as [p|n [|nm a]|r]; cbn; try done. intros _. split; [|done].
    unfold nothing_sent, node_register_op. repeat case_match; cbn; done.
  Qed.
  Lemma lsend_loop_stuck v l first rem : can v = false ->
    guar nothing_sent (lsend_loop S can v l first rem) /\
    (match first with Some _ => l <> [] | None => ~ (exists d, l = [d] /\ dest_is_local d = true) /\ l <> [] end ->
     no_return (lsend_loop S can v l first rem)).
  Proof.
    intros Hv. revert first rem. induction l as [|d l IH]; intros first rem; cbn [lsend_loop].
    { split; [done|]. destruct first; [done|]. tauto. }
    destruct (dest_is_local d) eqn:Hd.
    - destruct first as [d0|].
      + unfold serialized. rewrite Hv. cbn. done.
      + destruct (IH (Some d) rem) as [I1 I2]. split; [exact I1|]. intros [H _]. apply I2. intros ->. apply H. eauto.
    - unfold serialized. rewrite Hv. cbn. split.
      + apply guar_bind; [by apply target_quiet|]. done.
      + intros _. by apply no_return_bind2.
  Qed.
End props.

(** The destinations a [Local] may go to in one call: none, or a single local one. *)
Definition one_local (l : list dest) : Prop := l = [] \/ exists d, l = [d] /\ dest_is_local d = true.

Lemma lsend_one_same S can ds v : one_local (dests_list ds) -> same (lsend S can ds v) (send S ds v).
Proof.
  destruct ds as [d|l]; cbn [dests_list].
  - intros [?|(d' & [= <-] & Hd)]; [done|]. cbn. unfold lsend_one, send_one. rewrite Hd. apply same_refl.
  - intros [->|(d & -> & Hd)]; cbn; [done|]. rewrite Hd. cbn. unfold lsend_one, send_one. rewrite Hd. apply same_refl.
Qed.
(** A message, be it one that cannot be serialised, sent to one local process: the call returns, and the process gets the
    object itself (if the destination is an alias for one message, after the notice that it is used up). *)
Theorem C92_one_local_partial :
  forall S can ds v w j l d, dests_list ds = [d] -> dest_is_local d = true -> recipient w d = Some j -> w_loc w !! j = Some l ->
    exists w' xs, run (lsend S can ds v) w = Done w' tt /\ w_loc w' !! j = Some (after_arrival (xs ++ [IUserLocal v]) l) /\
      (forall x, x ∈ xs -> exists k, x = IAliasDeactivated k) /\ (forall i, i <> j -> w_loc w' !! i = w_loc w !! i).
Proof.
  intros S can ds v w j l d Hds Hd Hj Hl. destruct (run_send S v ds w) as (w' & E & H).
  pose proof (sn_mail _ _ _ _ _ H) as Hm. rewrite Hds in Hm. unfold serve_order in Hm. rewrite filter_cons_True in Hm by exact Hd. cbn [filter list_filter map app arrivals] in Hm.
  rewrite app_nil_r in Hm. unfold arrives in Hm. rewrite Hj in Hm.
  set (xs := match d with DAlias r => if one_shot_alias w d then [IAliasDeactivated (ref_id r)] else [] | _ => [] end).
  assert (forall i, mail_for i (match d with DAlias r => if one_shot_alias w d then [(j, IAliasDeactivated (ref_id r)); (j, IUserLocal v)] else [(j, IUserLocal v)] | _ => [(j, IUserLocal v)] end)
    = if decide (i = j) then xs ++ [IUserLocal v] else []) as Hx.
  { intros i. unfold mail_for, xs. destruct (decide (i = j)) as [->|Hne].
    - destruct d as [|? ?|r]; try destruct (one_shot_alias _ _); cbn [map]; rewrite !filter_cons_True by done; done.
    - destruct d as [|? ?|r]; try destruct (one_shot_alias _ _); rewrite !filter_cons_False by (cbn; congruence); done. }
  exists w', xs. split; [rewrite <- E; apply same_run, lsend_one_same; right; eauto|]. split; [|split].
  - rewrite Hm, Hx, decide_True, Hl by done. done.
  - unfold xs. intros x Hxs. repeat case_match; try (by apply elem_of_nil in Hxs). apply elem_of_list_singleton in Hxs as ->. eauto.
  - intros i Hi. rewrite Hm, Hx, decide_False by done. destruct (w_loc w !! i) as [li|]; [|done]. cbn. unfold after_arrival. rewrite app_nil_r. by destruct li.
Qed.
Print Assumptions C92_one_local_partial.
(** To anything else - a remote destination among them, or two local ones - it cannot be sent: in every schedule the call
    does not return, and none of its steps hands anything to anybody. *)
Theorem C92_all_or_nothing_partial :
  forall S can ds v, can v = false -> ~ one_local (dests_list ds) ->
    no_return (lsend S can ds v) /\ guar nothing_sent (lsend S can ds v).
Proof.
  intros S can ds v Hv Hn. destruct ds as [d|l]; cbn [lsend dests_list] in *.
  - unfold lsend_one. destruct (dest_is_local d) eqn:Hd; [exfalso; apply Hn; right; eauto|]. unfold serialized. rewrite Hv. done.
  - destruct (lsend_loop_stuck S can v l None [] Hv) as [H1 H2]. assert (no_return (lsend_loop S can v l None [])) as H3.
    { apply H2. split; [intros H; apply Hn; by right|intros ->; apply Hn; by left]. }
    split; [by apply no_return_bind|]. clear -H1 H3. induction (lsend_loop S can v l None []) as [a|m|g f k IH]; cbn in *; [done|done|].
    intros w Hg. destruct (H1 w Hg). split; [done|]. by apply IH.
Qed.
Print Assumptions C92_all_or_nothing_partial.
(** What can be serialised is sent as by [send] (C29): the same steps, the same results. *)
Theorem C92_others_as_before : forall S can ds v, can v = true -> same (lsend S can ds v) (send S ds v).
Proof. exact lsend_can. Qed.
Print Assumptions C92_others_as_before.
(** Nobody receives a [Local] that did not arrive as an object of this node: it cannot come from bytes. *)
Theorem C92_never_forged :
  forall S s me T f strict w' v, (forall T b, de S T b <> Some v) -> reachable S s ->
    run (try_receive S me T f strict) (s_world s) = Done w' (Some (Found (MUser v))) -> (me, IUserLocal v) ∈ w_log (s_world s).
Proof.
  intros S s me T f strict w' v Hv Hr H. apply C77_received_had_arrived in H as (x & Hx & Hm); [|done].
  destruct x as [b|u|z|d' r' why'|nd r'|r' q|i]; cbn in Hm; try done; [|by injection Hm as ->].
  destruct Hm as (T' & u & Hu & [= ->]). by apply Hv in Hu.
Qed.
Print Assumptions C92_never_forged.
(** The claim of local.rs:7-9 - "can be used to send any T to another local process" - for lists: a [Local] sent to local
    processes only is delivered.  It is not: the second local destination gets a serialised copy. *)
Definition C92_statement : Prop :=
  forall S can ds v w, seq_reachable S w -> (forall d, d ∈ dests_list ds -> dest_is_local d = true /\ is_Some (recipient w d)) ->
    exists w', run (lsend S can ds v) w = Done w' tt.
Theorem C92_refuted : ~ C92_statement.
Proof.
  intros H. destruct (H S0 (fun _ => false) (DsMany [DPid (PLocal 1); DPid (PLocal 2)]) (Val 0 7) two) as (w' & E).
  - apply two_reachable.
  - intros d Hd. cbn in Hd. repeat (apply elem_of_cons in Hd as [->|Hd]; [split; [reflexivity|vm_compute; eauto]|]). by apply elem_of_nil in Hd.
  - vm_compute in E. discriminate.
Qed.
Print Assumptions C92_refuted.
(** non-vacuity: a local object to one process; to a process and a remote one *)
Example C92_example :
  (exists l, w_loc (out_world (run (lsend S0 (fun _ => false) (DsMany [DPid (PLocal 2)]) (Val 0 7)) two)) !! 2%N = Some l /\ l_chan l = [IUserLocal (Val 0 7)]) /\
  ~ one_local (dests_list (DsMany [DPid (PLocal 1); DPid (PRemote 3 2)])) /\
  exists w, run (lsend S0 (fun _ => false) (DsMany [DPid (PLocal 1); DPid (PRemote 3 2)]) (Val 0 7)) two = Panicked w "Can't send `Local<T>` to a remote process!".
Proof.
  split; [eexists; split; vm_compute; reflexivity|]. split; [intros [?|(d & ? & _)]; discriminate|]. eexists. vm_compute. reflexivity.
Qed.
