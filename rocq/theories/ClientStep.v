(** What others, and the process itself, can do to the mailbox of a process between two receives. *)
From stdpp Require Import base list gmap numbers strings countable sorting relations.
From Coq Require Import Lia.
From Verif Require Import Prog ProgProofs ProgInv Types Mailbox MailboxSpec MailboxProofs World ProcApi NodeApi Api Steps Hist Labels SchedSpec SchedProofs
  ProcSpec GenServer Client ClientSpec.

Section touch.
  Context (S : serde) (me : N).

  (** Nothing is taken from the mailbox of [me], arrivals are logged, and of the monitors only those
      in [K] may be installed or removed. *)
  Definition touch (K : reference -> Prop) (w w' : world) : Prop :=
    (me < w_next_pid w)%N ->
    (me < w_next_pid w')%N /\ (w_next_ref w <= w_next_ref w')%N /\
    exists g, w_log w' = w_log w ++ g /\
      forall l, w_loc w !! me = Some l -> exists l', w_loc w' !! me = Some l' /\ l_items l' = l_items l /\
        l_chan l' = l_chan l ++ arrivals me g /\ forall r, ~ K r -> l_monitors l' !! r = l_monitors l !! r.
  Lemma arrivals_app a b : arrivals me (a ++ b) = arrivals me a ++ arrivals me b.
  Proof. unfold arrivals. apply omap_app. Qed.
  Lemma touch_refl K w : touch K w w.
  Proof.
    intros H. split; [done|]. split; [lia|]. exists []. rewrite app_nil_r. split; [done|]. intros l El. exists l. cbn. rewrite app_nil_r. auto.
  Qed.
  Lemma touch_trans K w1 w2 w3 : touch K w1 w2 -> touch K w2 w3 -> touch K w1 w3.
  Proof.
    intros H1 H2 H. destruct (H1 H) as (A1 & A2 & g & A3 & A4). destruct (H2 A1) as (B1 & B2 & g' & B3 & B4).
    split; [done|]. split; [lia|]. exists (g ++ g'). rewrite B3, A3, app_assoc. split; [done|]. intros l El.
    destruct (A4 l El) as (l1 & C1 & C2 & C3 & C4). destruct (B4 l1 C1) as (l2 & D1 & D2 & D3 & D4).
    exists l2. split; [done|]. split; [congruence|]. split; [by rewrite D3, C3, arrivals_app, app_assoc|].
    intros r Hr. by rewrite D4, C4.
  Qed.
  Lemma touch_mono (K K' : reference -> Prop) w w' : (forall r, K r -> K' r) -> touch K w w' -> touch K' w w'.
  Proof.
    intros HK H1 H. destruct (H1 H) as (A1 & A2 & g & A3 & A4). split; [done|]. split; [done|]. exists g. split; [done|].
    intros l El. destruct (A4 l El) as (l1 & C1 & C2 & C3 & C4). exists l1. split_and!; auto.
  Qed.
  Lemma touch_same K w w' : (w_next_pid w <= w_next_pid w')%N -> (w_next_ref w <= w_next_ref w')%N -> w_log w' = w_log w ->
    w_loc w' !! me = w_loc w !! me -> touch K w w'.
  Proof.
    intros H1 H2 H3 H4 H. split; [lia|]. split; [done|]. exists []. rewrite app_nil_r. split; [done|]. intros l El. exists l.
    rewrite H4. cbn. rewrite app_nil_r. auto.
  Qed.
  Lemma touch_new K w w' : w_next_pid w' = N.succ (w_next_pid w) -> w_next_ref w' = w_next_ref w -> w_log w' = w_log w ->
    w_loc w' = <[w_next_pid w := new_plocal]> (w_loc w) -> touch K w w'.
  Proof.
    intros H1 H2 H3 H4 H. apply touch_same; [lia|lia|done|..|done]. rewrite H4, lookup_insert_ne by lia. done.
  Qed.
  Lemma touch_push K i x w : touch K w (push i x w).
  Proof.
    unfold push. destruct (w_loc w !! i) as [l0|] eqn:E; [|apply touch_refl].
    intros H. cbn. split; [done|]. split; [lia|]. exists [(i, x)]. split; [done|]. intros l El.
    destruct (decide (i = me)) as [->|Hne].
    - rewrite E in El. injection El as ->. eexists. rewrite lookup_insert. split; [reflexivity|]. cbn.
      rewrite decide_True by done. auto.
    - exists l. rewrite lookup_insert_ne by done. cbn. rewrite decide_False by done. rewrite app_nil_r. auto.
  Qed.
  Lemma touch_exit K p f y w : touch K w (exit_op p f y w).
  Proof.
    unfold exit_op. repeat case_match; try apply touch_refl; try apply touch_push; apply touch_same; cbn; try done; lia.
  Qed.
  Lemma touch_exit_linked K p f y w : touch K w (exit_linked_op p f y w).
  Proof.
    unfold exit_linked_op. repeat case_match; try apply touch_refl; try apply touch_push; apply touch_same; cbn; try done; lia.
  Qed.

  (** The actions on the own process object. *)
  Definition own_act (a : act) : Prop :=
    match a with
    | AOwnAlias i _ | AOwnUnalias i _ | AOwnMonitor i _ _ | AOwnDemonitor i _ | AReceive i _ _ _ | AGone i => i = me
    | _ => False
    end.
  Ltac csame := apply touch_same; cbn; try reflexivity; try lia.
  Lemma act_touch a w : ~ own_act a -> touch (fun _ => False) w (does S a w).
  Proof.
    destruct a; cbn [does own_act]; intros Ha; try apply touch_refl; try (by csame);
      try (by (apply touch_same; cbn; [lia|lia|done|]; rewrite ?lookup_alter_ne by congruence; done)).
    - unfold receive_op. destruct (w_loc w !! me0) as [l|]; [|apply touch_refl]. destruct (select S T f b l). csame.
      by rewrite lookup_insert_ne.
    - unfold alias_take_op. repeat case_match; csame.
    - apply touch_push.
    - unfold send_to. case_match; [apply touch_push | apply touch_refl].
    - unfold node_register_op, spawn_op. repeat case_match; simplify_eq; try (by csame); by apply touch_new.
    - unfold send_frame, hand_out. repeat case_match; csame.
    - by apply touch_new.
    - unfold register_op. repeat case_match; csame.
    - apply touch_exit.
    - apply touch_exit_linked.
    - unfold gone. csame. by rewrite lookup_delete_ne.
    - unfold node_start_op, spawn_op. repeat case_match; simplify_eq; try (by csame); by apply touch_new.
    - unfold node_disconnect_op. case_match; [|apply touch_refl]. case_match; [|apply touch_refl]. case_match; [|csame].
      eapply touch_trans; [apply (touch_exit _ p0 p RKill w)|].
      apply touch_same; unfold exit_op, push; cbn; repeat case_match; cbn; try reflexivity; lia.
    - unfold node_accept_op. case_match; [|csame]. case_match; [|csame].
      match goal with |- context [if bool_decide _ then ?x else w] => set (w1 := if bool_decide (n_state n1 = Pending) then x else w) end.
      assert (touch (fun _ => False) w w1) as H1.
      { unfold w1. repeat case_match; try apply touch_refl. apply touch_exit. }
      clearbody w1. eapply touch_trans; [exact H1|]. case_match; csame.
    - unfold node_workers_op, hand_out. repeat case_match; csame.
    - unfold sup_down_op. repeat case_match; csame.
  Qed.
  Lemma fp_own c a : fp S c a -> own_act a -> caller c = Some me.
  Proof.
    destruct a; cbn [own_act]; try done; intros H ->; destruct c; cbn in H; try contradiction; try discriminate;
      unfold fp_send, fp_fire, fp_destroy_timer, fp_spawn, fp_link, fp_unlink, fp_monitor, fp_monitor_alias, fp_demonitor, fp_exit, fp_finish, fp_crash, fp_supervise, fp_supdown in H;
      cbn in H; try contradiction; try (by destruct H; subst); cbn; try (by subst);
      try (by destruct f; contradiction); try (by destruct H as [[] | ->]); try (by destruct H as [[] | []]);
      try (by destruct H as [-> ->]; destruct link); try congruence.
  Qed.
  (** What a call of somebody else, or an own call that does not touch the own object, does. *)
  Lemma call_touch c : (forall a, fp S c a -> ~ own_act a) -> guar (touch (fun _ => False)) (call_prog S c).
  Proof.
    intros Hc. eapply guar_mono; [|apply (call_fp S c)]. intros w w' (a & Ha & ->). apply act_touch, Hc, Ha.
  Qed.
  Lemma foreign_touch c : foreign_call me c -> guar (touch (fun _ => False)) (call_prog S c).
  Proof. intros Hc. apply call_touch. intros a Ha Ho. apply Hc. by eapply fp_own. Qed.
End touch.
