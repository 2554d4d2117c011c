(** C75-C78: what processes are told is true, and nothing is received that was not sent. *)
From stdpp Require Import base list gmap numbers strings countable sorting relations.
From Coq Require Import Lia.
From Verif Require Import Prog ProgProofs ProgInv Types Mailbox World ProcApi NodeApi Api Steps Hist Labels Play SchedSpec SchedProofs SchedProps
  Path TruthSpec TruthProofs OriginSpec OriginProofs.

Notation worlds ss := (s_world <$> ss).

(** The counter of references only grows along a run. *)
Lemma does_next_ref S a w : (w_next_ref w <= w_next_ref (does S a w))%N.
Proof.
  assert (forall i x w, w_next_ref (push i x w) = w_next_ref w) as Hpush by (intros i x w0; unfold push; by destruct (w_loc w0 !! i)).
  assert (forall p f y w, w_next_ref (exit_op p f y w) = w_next_ref w) as Hexit.
  { intros p f y w0. unfold exit_op. repeat case_match; rewrite ?Hpush; done. }
  destruct a; cbn [does]; try (cbn; lia).
  - unfold receive_op. destruct (w_loc w !! me) as [l|]; [|cbn; lia]. destruct (select S T f b l). cbn; lia.
  - unfold alias_take_op. repeat case_match; cbn; lia.
  - rewrite Hpush. lia.
  - unfold send_to. destruct (w_regs w !! i); rewrite ?Hpush; lia.
  - unfold node_register_op, spawn_op. repeat case_match; simplify_eq; cbn; lia.
  - unfold send_frame, hand_out. repeat case_match; cbn; lia.
  - unfold register_op. repeat case_match; cbn; lia.
  - rewrite Hexit. lia.
  - unfold exit_linked_op. repeat case_match; rewrite ?Hpush; cbn; lia.
  - unfold node_start_op, spawn_op. repeat case_match; simplify_eq; cbn; lia.
  - unfold node_disconnect_op. repeat case_match; try (cbn; lia).
    change (w_next_ref w <= w_next_ref (exit_op p0 p RKill (up_pend (delete n) w)))%N. rewrite Hexit. cbn; lia.
  - unfold node_accept_op. case_match; [|cbn; lia]. case_match; [|cbn; lia].
    match goal with |- context [if bool_decide _ then ?x else w] => set (w1 := if bool_decide (n_state n1 = Pending) then x else w) end.
    assert (w_next_ref w1 = w_next_ref w) as <- by (unfold w1; repeat case_match; rewrite ?Hexit; done).
    clearbody w1. case_match; cbn; lia.
  - unfold node_workers_op, hand_out. repeat case_match; cbn; lia.
  - unfold sup_down_op. repeat case_match; cbn; lia.
Qed.
Lemma run_grows S ok ss : run_of (calls_of S ok) (Sys world0 []) ss -> grows (worlds ss).
Proof.
  intros [H0 H1] n n' w w' Hn Hw Hw'.
  rewrite list_lookup_fmap in Hw, Hw'. apply fmap_Some in Hw as (s & Hs & ->). apply fmap_Some in Hw' as (s' & Hs' & ->).
  assert (forall d s', ss !! (n + d) = Some s' -> reach (calls_of S ok) s s') as Hr.
  { clear s' Hs' Hn n'. induction d as [|d IH]; intros s' Hs'; [rewrite Nat.add_0_r, Hs in Hs'; injection Hs' as ->; apply rtc_refl|].
    rewrite Nat.add_succ_r in Hs'. destruct (ss !! (n + d)) as [s1|] eqn:E; [|exfalso; apply lookup_ge_None_1 in E; apply lookup_lt_Some in Hs'; lia].
    eapply rtc_r; [by apply IH|]. by eapply H1. }
  assert (reach (calls_of S ok) s s') as R by (apply (Hr (n' - n)); by replace (n + (n' - n)) with n' by lia).
  assert (exists ts, reach (calls_of S ok) (Sys world0 []) (Sys (s_world s) ts)) as (ts & Hall).
  { exists (s_threads s). destruct s. by apply (run_reach_all (calls_of S ok) _ ss n). }
  (* every step of every thread only raises the counter *)
  set (G := fun w w' : world => (w_next_ref w <= w_next_ref w')%N).
  assert (forall p, calls_of S ok p -> guar G p) as Hg.
  { intros p (c & _ & ->). eapply guar_mono; [|apply call_fp]. intros x y (a & _ & ->). apply does_next_ref. }
  assert (Forall (guar G) (s_threads s)) as Hts.
  { assert (reach (calls_of S ok) (Sys world0 []) s) as R0 by (by apply (run_reach_all (calls_of S ok) _ ss n)).
    refine (rtc_ind_r (fun s => Forall (guar G) (s_threads s)) (Sys world0 []) _ _ s R0); [constructor|].
    intros y z _ Hstep Hy. destruct Hstep as [i y z Hi|p y Hp]; [|apply Forall_app; split; [done|constructor; [by apply Hg|constructor]]].
    unfold tick in Hi. destruct (s_threads y !! i) as [[| |g f k]|] eqn:Et; try discriminate. destruct (g (s_world y)) eqn:Eg; inversion Hi; subst; cbn.
    apply Forall_insert; [done|]. pose proof (Forall_lookup_1 _ _ _ _ Hy Et) as Hk. cbn in Hk. by destruct (Hk _ Eg). }
  clear -R Hts Hg.
  enough (G (s_world s) (s_world s') /\ Forall (guar G) (s_threads s')) by tauto.
  refine (rtc_ind_r (fun s' => G (s_world s) (s_world s') /\ Forall (guar G) (s_threads s')) s _ _ s' R); [split; [unfold G; lia|done]|].
  intros y z _ Hstep [Hy1 Hy2]. destruct Hstep as [i y z Hi|p y Hp]; [|split; [done|]; apply Forall_app; split; [done|constructor; [by apply Hg|constructor]]].
  unfold tick in Hi. destruct (s_threads y !! i) as [[| |g f k]|] eqn:Et; try discriminate. destruct (g (s_world y)) eqn:Eg; inversion Hi; subst; cbn.
  pose proof (Forall_lookup_1 _ _ _ _ Hy2 Et) as Hk. cbn in Hk. destruct (Hk _ Eg) as [K1 K2]. split; [unfold G in *; lia|]. by apply Forall_insert.
Qed.

Section props.
  Context (S : serde) (X : N -> N -> exit_reason -> Prop).
  (** The exit signals that processes send with [exit] in the run are those of [X]. *)
  Definition exits_of (c : call) : Prop := match c with CExit i (PLocal o) why => X i o why | _ => True end.
  Lemma run_told ss : run_of (calls_of S exits_of) (Sys world0 []) ss ->
    forall n s o x, ss !! n = Some s -> (o, x) ∈ w_log (s_world s) -> told X (worlds ss) n o x.
  Proof.
    intros Hr n s o x Hs. pose proof (run_grows S _ ss Hr) as Hg.
    assert (inv X (worlds ss) n (s_world s)) as [H _ _ _]; [|apply H].
    eapply (run_inv (calls_of S exits_of) (Sys world0 []) ss (inv X (worlds ss))); [exact Hr| |done| | |exact Hs].
    - split; cbn; [set_solver|intros ? ? ? ? ? H; by rewrite lookup_empty in H|intros ? ? ? ? ? H; by rewrite lookup_empty in H|intros ? ? ? ? H; by rewrite lookup_empty in H].
    - intros m w _ Hi. eapply keeps_inv; [apply keeps_refl|exact Hi].
    - intros p m (c & Hc & ->). by apply k_call.
  Qed.
End props.

(** C75: in every schedule of every calls, whenever a down notice for destination [d] with monitor
    reference [r] and reason [why] has been put in a mailbox: the process [d] stands for has ended with
    that reason, or the reason is "noproc" and at some moment after the reference was handed out there was
    no such process.  And whenever a node-down notice has, the node was registered and not connected. *)
Theorem C75_down_notice_true S ss n s o d r why :
  run_of (any_call S) (Sys world0 []) ss -> ss !! n = Some s ->
  (o, IProcessDown d r why) ∈ w_log (s_world s) -> truth (worlds ss) n d (ref_id r) why.
Proof.
  intros Hr Hs Hx. eapply (run_told S (fun _ _ _ => True) ss) in Hx; [exact Hx| |exact Hs].
  destruct Hr as [H0 H1]. split; [done|]. intros. destruct (H1 _ _ _ H H2) as [i a b Hi|p a (c & ->)]; [by apply (step_tick _ i)|].
  apply step_call. exists c. split; [|done]. destruct c; try done. by destruct p.
Qed.
Print Assumptions C75_down_notice_true.
Theorem C75_node_notice_true S ss n s o nd r :
  run_of (any_call S) (Sys world0 []) ss -> ss !! n = Some s ->
  (o, INodeDown nd r) ∈ w_log (s_world s) -> node_truth (worlds ss) n nd.
Proof.
  intros Hr Hs Hx. eapply (run_told S (fun _ _ _ => True) ss) in Hx; [exact Hx| |exact Hs].
  destruct Hr as [H0 H1]. split; [done|]. intros. destruct (H1 _ _ _ H H2) as [i a b Hi|p a (c & ->)]; [by apply (step_tick _ i)|].
  apply step_call. exists c. split; [|done]. destruct c; try done. by destruct p.
Qed.
Print Assumptions C75_node_notice_true.

(** ** What a process receives had arrived in its mailbox. *)
Lemma reach_sourced S P s : serde_keeps S P -> reach (calls_of S (sends_only S P)) (Sys world0 []) s -> sourced S P (s_world s).
Proof.
  intros HP Hr. destruct (reach_run _ _ _ Hr) as (ss & Hrun & Hl). rewrite last_lookup in Hl.
  eapply (run_inv_ret (calls_of S (sends_only S P)) (Sys world0 []) ss (fun _ w => sourced S P w) (heard S P (worlds ss)));
    [exact Hrun| |done|done|apply heard_later| |exact Hl].
  - split; cbn; [intros ? ? H; by rewrite lookup_empty in H|set_solver|intros ? ? H; by rewrite lookup_empty in H].
  - intros p n (c & Hc & ->). by apply o_call.
Qed.
Lemma any_sends S p : any_call S p -> calls_of S (sends_only S (fun _ => True)) p.
Proof. intros (c & ->). exists c. split; [|done]. destruct c; try done. by destruct f. Qed.
Lemma reach_any (ok : call -> Prop) S s : (forall c, ok c) -> reachable S s -> reach (calls_of S ok) (Sys world0 []) s.
Proof.
  intros H Hr. refine (rtc_ind_r (fun s => reach (calls_of S ok) (Sys world0 []) s) (Sys world0 []) _ _ s Hr); [apply rtc_refl|].
  intros y z _ Hs IH. eapply rtc_r; [exact IH|]. destruct Hs as [i y z Hi|p y (c & ->)]; [by apply (step_tick _ i)|]. apply step_call. by exists c.
Qed.
Lemma received_arrived S P w me T f strict w' m : sourced S P w ->
  run (try_receive S me T f strict) w = Done w' (Some (Found m)) -> exists x, (me, x) ∈ w_log w /\ readable S x m /\ fine S P x.
Proof.
  intros Hs H. unfold try_receive, atom in H. cbn in H. unfold receive_op in H.
  destruct (w_loc w !! me) as [l|] eqn:E; [|done]. destruct (select S T f strict l) as [s l'] eqn:Es. cbn in H. injection H as _ ->.
  destruct (select_from S _ _ _ _ _ _ _ Es (so_box _ _ _ Hs _ _ E)) as [_ Hf]. destruct (Hf _ eq_refl) as (z & Hz & Hr).
  exists z. split; [done|]. split; [done|]. by apply (so_log _ _ _ Hs me).
Qed.
(** C77: in every reachable state of every schedule, whatever message a receive of process [me] returns, an
    item that reads as this message had been put in the mailbox of [me]. *)
Theorem C77_received_had_arrived S s me T f strict w' m :
  reachable S s -> run (try_receive S me T f strict) (s_world s) = Done w' (Some (Found m)) ->
  exists x, (me, x) ∈ w_log (s_world s) /\ readable S x m.
Proof.
  intros Hr H. assert (sourced S (fun _ => True) (s_world s)) as Hs.
  { apply reach_sourced; [done|]. apply reach_any; [|exact Hr]. intros c. destruct c; try done. by destruct f0. }
  destruct (received_arrived _ _ _ _ _ _ _ _ _ Hs H) as (x & H1 & H2 & _). eauto.
Qed.
Print Assumptions C77_received_had_arrived.

(** C75, for receivers: a ProcessDown message that a process receives tells the truth. *)
Theorem C75_received_down_true S ss n s me T f strict w' d r why :
  run_of (any_call S) (Sys world0 []) ss -> ss !! n = Some s ->
  run (try_receive S me T f strict) (s_world s) = Done w' (Some (Found (MSystem (SProcessDown d r why)))) ->
  truth (worlds ss) n d (ref_id r) why.
Proof.
  intros Hr Hs H. apply C77_received_had_arrived in H as (x & Hx & Hm); [|by eapply run_reach_all].
  assert (run_of (calls_of S (exits_of (fun _ _ _ => True))) (Sys world0 []) ss) as Hr'.
  { destruct Hr as [H0 H1]. split; [done|]. intros k a b Ha Hb. destruct (H1 _ _ _ Ha Hb) as [i a b Hi|p a (c & ->)]; [by apply (step_tick _ i)|].
    apply step_call. exists c. split; [|done]. destruct c; try done. by destruct p. }
  pose proof (run_told S (fun _ _ _ => True) ss Hr' _ _ _ _ Hs Hx) as Ht.
  destruct x as [b|v|z|d' r' why'|nd r'|r' p|i]; cbn in Hm; try done; try (destruct Hm as (? & ? & ? & ?); done).
  - injection Hm as <-. done.
  - injection Hm as <- <- <-. exact Ht.
Qed.
Print Assumptions C75_received_down_true.

(** C76: in every schedule, an Exit message from local process [i] with reason [why] that process [me]
    receives means that [i] called exit on [me] with that reason, or has ended with that reason, or that
    [me] linked to it when it did not exist (noproc). *)
Theorem C76_received_exit_true S X ss n s me T f strict w' p why :
  run_of (calls_of S (exits_of X)) (Sys world0 []) ss -> ss !! n = Some s ->
  run (try_receive S me T f strict) (s_world s) = Done w' (Some (Found (MSystem (SExit p why)))) ->
  exit_truth X (worlds ss) n me p why.
Proof.
  intros Hr Hs H. assert (reachable S s) as Hre.
  { eapply (run_reach_all (any_call S)); [|exact Hs]. destruct Hr as [H0 H1]. split; [done|]. intros k a b Ha Hb.
    destruct (H1 _ _ _ Ha Hb) as [i a b Hi|q a (c & _ & ->)]; [by apply (step_tick _ i)|]. apply step_call. by exists c. }
  apply C77_received_had_arrived in H as (x & Hx & Hm); [|done].
  pose proof (run_told S X ss Hr _ _ _ _ Hs Hx) as Ht.
  destruct x as [b|v|z|d' r' why'|nd r'|r' q|i]; cbn in Hm; try done; try (destruct Hm as (? & ? & ? & ?); done).
  injection Hm as <-. exact Ht.
Qed.
Print Assumptions C76_received_exit_true.

(** C78: no message out of thin air.  If in a run every message sent (now or after a delay) is one of [P] and every
    frame of messages from another node carries only such, then every user message received is one of
    [P]. *)
Theorem C78_no_thin_air S P s me T f strict w' v :
  serde_keeps S P -> reach (calls_of S (sends_only S P)) (Sys world0 []) s ->
  run (try_receive S me T f strict) (s_world s) = Done w' (Some (Found (MUser v))) -> P v.
Proof.
  intros HP Hr H. destruct (received_arrived S P _ _ _ _ _ _ _ (reach_sourced S P s HP Hr) H) as (x & _ & H1 & H2).
  destruct x as [b|u|z|d' r' why'|nd r'|r' q|i]; cbn in *; try done.
  - destruct H1 as (T' & u & Hu & [= ->]). by apply (H2 T').
  - by injection H1 as ->.
Qed.
Print Assumptions C78_no_thin_air.

(** ** The hypotheses are met. *)
Definition receives (S : serde) (me T : N) (m : message) (w : world) : Prop :=
  match run (try_receive S me T (fun _ => true) false) w with Done _ (Some (Found m')) => m' = m | _ => False end.
Lemma receives_run S me T m w : receives S me T m w -> exists w', run (try_receive S me T (fun _ => true) false) w = Done w' (Some (Found m)).
Proof. unfold receives. destruct (run _ w) as [w' [[m'| |]|]| |]; try done. intros ->. eauto. Qed.
Lemma seq_reach S (ok : call -> Prop) cs (P : world -> Prop) : Forall ok cs ->
  match play S cs world0 with Some w => P w | None => False end ->
  exists s, reach (calls_of S ok) (Sys world0 []) s /\ P (s_world s).
Proof.
  intros Hok H. destruct (play S cs world0) as [w|] eqn:E; [|done]. apply play_history in E.
  assert (exists ts, reach (calls_of S ok) (Sys world0 []) (Sys w ts)) as (ts & Hr); [|by exists (Sys w ts)].
  clear H P. remember world0 as w0 eqn:E0. induction E as [w|w cs w1 c w2 Hh IH _ Hc]; subst; [exists []; apply rtc_refl|].
  apply Forall_app in Hok as [Hok Hok1]. destruct (IH Hok eq_refl) as (ts & Hr).
  assert (reach (calls_of S ok) (Sys world0 []) (Sys w1 (ts ++ [call_prog S c]))) as H1.
  { eapply rtc_r; [exact Hr|]. apply (step_call (calls_of S ok) (call_prog S c) (Sys w1 ts)). exists c. split; [|done]. by apply Forall_inv in Hok1. }
  pose proof (run_reach (calls_of S ok) ts (call_prog S c) w1) as H2.
  destruct Hc as [v E|m E]; rewrite E in H2; eexists; eapply rtc_transitive; eassumption.
Qed.
Lemma seq_run S (ok : call -> Prop) cs (P : world -> Prop) : Forall ok cs ->
  match play S cs world0 with Some w => P w | None => False end ->
  exists ss n s, run_of (calls_of S ok) (Sys world0 []) ss /\ ss !! n = Some s /\ P (s_world s).
Proof.
  intros Hok H. destruct (seq_reach S ok cs P Hok H) as (s & Hr & HP).
  destruct (reach_run _ _ _ Hr) as (ss & Hrun & Hl). rewrite last_lookup in Hl. by eexists ss, _, _.
Qed.
Lemma run_any S ok ss : run_of (calls_of S ok) (Sys world0 []) ss -> run_of (any_call S) (Sys world0 []) ss.
Proof.
  intros [H0 H1]. split; [done|]. intros k a b Ha Hb.
  destruct (H1 _ _ _ Ha Hb) as [i a b Hi|q a (c & _ & ->)]; [by apply (step_tick _ i)|]. apply step_call. by exists c.
Qed.
Lemma seq_run_any S cs (P : world -> Prop) :
  match play S cs world0 with Some w => P w | None => False end ->
  exists ss n s, run_of (any_call S) (Sys world0 []) ss /\ ss !! n = Some s /\ P (s_world s).
Proof.
  intros H. destruct (seq_run S (fun _ => True) cs P) as (ss & n & s & H1 & H2); [by apply Forall_true|done|]. exists ss, n, s. split; [by eapply run_any|done].
Qed.
Example C75_example : exists ss n s, run_of (any_call S0) (Sys world0 []) ss /\ ss !! n = Some s /\
  receives S0 1 0 (MSystem (SProcessDown (DPid (PLocal 2)) (RLocal 1) (RCustom "boom"))) (s_world s).
Proof.
  apply (seq_run_any S0 [CSpawn 0 false false; CSpawn 0 false false; CMonitor 1 (DPid (PLocal 2)); CCrash 2 (RCustom "boom")]).
  vm_compute. reflexivity.
Qed.
Example C75_example_noproc : exists ss n s, run_of (any_call S0) (Sys world0 []) ss /\ ss !! n = Some s /\
  receives S0 1 0 (MSystem (SProcessDown (DNamed "x" NLocal) (RLocal 1) (RCustom "noproc"))) (s_world s).
Proof.
  apply (seq_run_any S0 [CSpawn 0 false false; CMonitor 1 (DNamed "x" NLocal)]).
  vm_compute. reflexivity.
Qed.
Example C75_example_node : exists ss n s, run_of (any_call S0) (Sys world0 []) ss /\ ss !! n = Some s /\
  receives S0 1 0 (MSystem (SNodeDown (NRemote "b" (SA4 1 2)) (RLocal 1))) (s_world s).
Proof.
  apply (seq_run_any S0 [CSpawn 0 false false; CNodeStart "a" (SA4 1 1); CNodeMonitor 1 (NRemote "b" (SA4 1 2)); CSupDown (NRemote "b" (SA4 1 2)) (PLocal 3)]).
  vm_compute. reflexivity.
Qed.
(** An Exit message of a linked process that crashed, in a run without any call of exit. *)
Example C76_example : exists ss n s, run_of (calls_of S0 (exits_of (fun _ _ _ => False))) (Sys world0 []) ss /\ ss !! n = Some s /\
  receives S0 1 0 (MSystem (SExit (PLocal 2) (RCustom "boom"))) (s_world s).
Proof.
  apply (seq_run S0 (exits_of (fun _ _ _ => False)) [CSpawn 0 false false; CSetFlags 1 true; CSpawn 1 true false; CCrash 2 (RCustom "boom")]).
  - repeat constructor.
  - vm_compute. reflexivity.
Qed.
(** The value is sent to two processes at once, so that one of them gets bytes. *)
Definition S7 : serde := Serde (fun _ => []) (fun T _ => Some (Val T 7)).
Example C78_example : serde_keeps S7 (fun v => v_data v = 7%N) /\
  exists s, reach (calls_of S7 (sends_only S7 (fun v => v_data v = 7%N))) (Sys world0 []) s /\
    receives S7 1 0 (MUser (Val 0 7)) (s_world s) /\ receives S7 2 0 (MUser (Val 0 7)) (s_world s).
Proof.
  split; [intros v Hv T v' [= <-]; reflexivity|].
  apply (seq_reach S7 _ [CSpawn 0 false false; CSpawn 0 false false; CSend (DsMany [DPid (PLocal 1); DPid (PLocal 2)]) (Val 0 7)] (fun w => receives S7 1 0 _ w /\ receives S7 2 0 _ w)).
  - repeat constructor.
  - vm_compute. split; reflexivity.
Qed.
