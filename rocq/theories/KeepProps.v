(** C108: an alias stays active for its owner until the owner gives it up - or somebody takes it away. *)
From stdpp Require Import base list gmap numbers strings countable sorting relations.
From Coq Require Import Lia.
From Verif Require Import Prog ProgProofs ProgInv Types Mailbox MailboxSpec World ProcApi NodeApi Api Steps Hist Labels SchedSpec SchedProps ProcSpec KeepSpec KeepProofs.

(** C108.  Let process [me] call [Process::alias(b)] in any schedule, between any other calls, begun before or after,
    that leave the alias alone (KeepSpec.v).  Once the call has returned the reference [k], the alias is active in
    every state that follows: [me]'s own unalias would return true, and a message sent to it reaches the mailbox of
    [me] (after the notice that the alias is gone, if it is a one-shot alias). *)
Theorem C108_alias_kept_partial :
  forall S k me b s0 s,
    reach (calls_of S (leaves_alias k me b)) (Sys world0 []) s0 ->
    reach (calls_of S (leaves_alias k me b)) (Sys (s_world s0) (s_threads s0 ++ [call_prog S (CAlias me b)])) s ->
    s_threads s !! length (s_threads s0) = Some (Ret (VRef (RLocal k))) ->
    (exists w', run (unalias me (RLocal k)) (s_world s) = Done w' true) /\
    (is_Some (w_loc (s_world s0) !! me) ->
     forall v, exists w', run (send S (DsOne (DAlias (RLocal k))) v) (s_world s) = Done w' tt /\
       w_log w' = w_log (s_world s) ++ (if b then [(me, IAliasDeactivated k)] else []) ++ [(me, IUserLocal v)]).
Proof.
  intros S k me b s0 s H0 H1 Hn. pose proof (alias_life S k me b s0 s H0 H1 Hn) as Ha. unfold active in Ha. split.
  - destruct (C24_unalias me (RLocal k) (s_world s)) as (w' & E & _). exists w'. rewrite E. cbn [ref_id]. f_equal.
    apply bool_decide_eq_true_2. rewrite Ha. eauto.
  - intros Hl v. pose proof (owner_stays S k me b s0 s H0 H1 Hl) as Hm.
    destruct (C24_send_to_alias S k v (s_world s)) as (w' & E & H). exists w'. split; [exact E|]. rewrite Ha in H. destruct H as [H _].
    rewrite decide_True in H by exact Hm. exact H.
Qed.
Print Assumptions C108_alias_kept_partial.

(** Calls begin together, then take steps; more calls begin; they take steps. *)
Lemma begin_all S (okc : call -> Prop) cs w ts : Forall okc cs ->
  reach (calls_of S okc) (Sys w ts) (Sys w (ts ++ map (call_prog S) cs)).
Proof.
  revert ts; induction cs as [|c cs IH]; intros ts H; cbn [map].
  - rewrite app_nil_r. apply rtc_refl.
  - apply Forall_cons in H as [Hc H]. eapply rtc_l; [apply (step_call _ (call_prog S c)); by exists c|]. cbn.
    replace (ts ++ call_prog S c :: map (call_prog S) cs) with ((ts ++ [call_prog S c]) ++ map (call_prog S) cs) by (by rewrite <- app_assoc).
    by apply IH.
Qed.
Lemma keep_example S (okc : call -> Prop) cs0 d0 me b cs1 d1 (P : sys world val -> sys world val -> Prop) :
  Forall okc cs0 -> Forall okc cs1 ->
  match exec d0 (Sys world0 (map (call_prog S) cs0)) with
  | Some s0 => match exec d1 (Sys (s_world s0) ((s_threads s0 ++ [call_prog S (CAlias me b)]) ++ map (call_prog S) cs1)) with
               | Some s => P s0 s
               | None => False end
  | None => False end ->
  exists s0 s, reach (calls_of S okc) (Sys world0 []) s0 /\
    reach (calls_of S okc) (Sys (s_world s0) (s_threads s0 ++ [call_prog S (CAlias me b)])) s /\ P s0 s.
Proof.
  intros H0 H1 H. destruct (exec d0 _) as [s0|] eqn:E0; [|done]. destruct (exec d1 _) as [s|] eqn:E1; [|done].
  exists s0, s. split_and!; [| |exact H].
  - eapply rtc_transitive; [apply (begin_all S okc cs0 world0 [] H0)|]. by eapply exec_reach.
  - eapply rtc_transitive; [apply (begin_all S okc cs1 _ _ H1)|]. by eapply exec_reach.
Qed.

(** The documentation of [Process::unalias] speaks of aliases "active for the current process".  It is not so: an alias
    is destroyed by any process that passes its id to [Process::unalias], although its owner keeps it and does not end. *)
Definition C108_owner_statement : Prop :=
  forall S k me s0 s,
    reach (calls_of S (unaliased_by_owner k me)) (Sys world0 []) s0 ->
    reach (calls_of S (unaliased_by_owner k me)) (Sys (s_world s0) (s_threads s0 ++ [call_prog S (CAlias me false)])) s ->
    s_threads s !! length (s_threads s0) = Some (Ret (VRef (RLocal k))) ->
    exists w', run (unalias me (RLocal k)) (s_world s) = Done w' true.
Theorem C108_owner_refuted : ~ C108_owner_statement.
Proof.
  intros H.
  destruct (keep_example S0 (unaliased_by_owner 1 1) [CSpawn 0 false false; CSpawn 0 false false] [0; 0; 0; 1; 1; 1] 1 false [CUnalias 2 (RLocal 1)] [2; 2; 2; 3; 3]
    (fun s0 s => s_threads s !! length (s_threads s0) = Some (Ret (VRef (RLocal 1))) /\
       s_threads s !! 3 = Some (Ret (VBool true)) /\ w_aliases (s_world s) !! 1%N = None)) as (s0 & s & H1 & H2 & H3 & H4 & H5).
  { repeat constructor. }
  { constructor; [|constructor]. cbn. discriminate. }
  { vm_compute. auto. }
  destruct (H S0 1%N 1%N s0 s H1 H2 H3) as (w' & E).
  destruct (C24_unalias 1 (RLocal 1) (s_world s)) as (w2 & E2 & _). rewrite E2 in E. cbn [ref_id] in E. rewrite H5 in E.
  rewrite bool_decide_eq_false_2 in E by (intros [? ?]; discriminate). congruence.
Qed.
Print Assumptions C108_owner_refuted.

(** ... and by another node that says a monitor of that id fired, although no monitor has it: the frame's handler
    destroys the alias before it looks for the monitor. *)
Definition leaves_but_frames (k me : N) (c : call) : Prop := match c with CFrame _ _ _ => True | _ => leaves_alias k me false c end.
Definition C108_frames_statement : Prop :=
  forall S k me s0 s,
    reach (calls_of S (leaves_but_frames k me)) (Sys world0 []) s0 ->
    reach (calls_of S (leaves_but_frames k me)) (Sys (s_world s0) (s_threads s0 ++ [call_prog S (CAlias me false)])) s ->
    s_threads s !! length (s_threads s0) = Some (Ret (VRef (RLocal k))) ->
    exists w', run (unalias me (RLocal k)) (s_world s) = Done w' true.
Theorem C108_frames_refuted : ~ C108_frames_statement.
Proof.
  intros H.
  destruct (keep_example S0 (leaves_but_frames 1 1) [CSpawn 0 false false] [0; 0; 0] 1 false
    [CFrame (NRemote "b" (SA4 7 1)) (PLocal 9) (FMonitorDown [1%N] RNormal)] [1; 1; 1; 2; 2]
    (fun s0 s => s_threads s !! length (s_threads s0) = Some (Ret (VRef (RLocal 1))) /\ w_aliases (s_world s) !! 1%N = None)) as (s0 & s & H1 & H2 & H3 & H5).
  { repeat constructor. }
  { repeat constructor. }
  { vm_compute. auto. }
  destruct (H S0 1%N 1%N s0 s H1 H2 H3) as (w' & E).
  destruct (C24_unalias 1 (RLocal 1) (s_world s)) as (w2 & E2 & _). rewrite E2 in E. cbn [ref_id] in E. rewrite H5 in E.
  rewrite bool_decide_eq_false_2 in E by (intros [? ?]; discriminate). congruence.
Qed.
Print Assumptions C108_frames_refuted.

(** non-vacuity: while process 1 makes a one-shot alias, process 2 makes another one, monitors process 1 with a third,
    undoes that monitor and ends; the first alias is there at the end. *)
Example C108_example :
  exists s0 s,
    reach (calls_of S0 (leaves_alias 1 1 true)) (Sys world0 []) s0 /\
    reach (calls_of S0 (leaves_alias 1 1 true)) (Sys (s_world s0) (s_threads s0 ++ [call_prog S0 (CAlias 1 true)])) s /\
    s_threads s !! length (s_threads s0) = Some (Ret (VRef (RLocal 1))) /\
    s_threads s !! 3 = Some (Ret (VRef (RLocal 2))) /\ s_threads s !! 4 = Some (Ret (VRef (RLocal 3))) /\
    w_regs (s_world s) !! 2%N = None /\ w_aliases (s_world s) !! 1%N = Some (1%N, true) /\ w_aliases (s_world s) !! 2%N = None /\ w_aliases (s_world s) !! 3%N = None /\ is_Some (w_loc (s_world s0) !! 1%N).
Proof.
  apply (keep_example S0 (leaves_alias 1 1 true) [CSpawn 0 false false; CSpawn 0 false false] [0; 0; 0; 1; 1; 1] 1 true
    [CAlias 2 false; CMonitorAlias 2 (DPid (PLocal 1)) true; CDemonitor 2 (RLocal 3); CFinish 2]
    ([2; 3; 2; 3; 4; 3; 2; 4; 4; 4; 4] ++ [5; 5; 5] ++ replicate 6 6)%nat
    (fun s0 s => s_threads s !! length (s_threads s0) = Some (Ret (VRef (RLocal 1))) /\
    s_threads s !! 3 = Some (Ret (VRef (RLocal 2))) /\ s_threads s !! 4 = Some (Ret (VRef (RLocal 3))) /\
    w_regs (s_world s) !! 2%N = None /\ w_aliases (s_world s) !! 1%N = Some (1%N, true) /\ w_aliases (s_world s) !! 2%N = None /\ w_aliases (s_world s) !! 3%N = None /\ is_Some (w_loc (s_world s0) !! 1%N))).
  - repeat constructor.
  - repeat constructor; cbn; discriminate.
  - vm_compute. repeat split; eauto.
Qed.
