(** A one-shot alias delivers at most one message, under every schedule: the token argument. *)
From stdpp Require Import base list gmap numbers strings countable sorting.
From Coq Require Import Lia.
From Verif Require Import Prog ProgProofs ProgInv Types Mailbox World ProcApi NodeApi Api Steps Msum SchedSpec SchedProofs.

Section alias.
  Context (S : serde) (k : N) (v : value).
  Notation carries := (carries S v).
  Notation carried := (carried S v).
  Notation other_value := (other_value S v).
  Notation only_alias := (only_alias k).
  Notation only_via_alias := (only_via_alias S k v).
  Definition one_shot (w : world) : nat := match w_aliases w !! k with Some _ => 1 | None => 0 end.
  Definition al_cnt (w : world) : nat := one_shot w + length (carried w).
  Record al_inv (w : world) : Prop := AlInv {
    ai_next : (k < w_next_ref w)%N;
    ai_reply : forall o, w_aliases w !! k <> Some (o, false);
    ai_tasks : forall i t, w_tasks w !! i = Some t ->
                 other_value (t_val t) \/ Forall only_alias (dests_list (t_dests t));
  }.
  Notation quiet := (step1 S (fun x => ~ carries x) True False True).
  Definition al_step (w w' : world) : Prop := (al_inv w -> al_inv w') /\ al_cnt w' <= al_cnt w.

  Lemma al_same w w' :
    (w_next_ref w <= w_next_ref w')%N -> w_aliases w' = w_aliases w -> w_log w' = w_log w -> w_tasks w' = w_tasks w ->
    al_step w w'.
  Proof.
    intros H1 H2 H3 H4. split.
    - intros [I1 I2 I3]. constructor; rewrite ?H2, ?H4; auto. lia.
    - unfold al_cnt, one_shot, carried. rewrite H2, H3. lia.
  Qed.
  Lemma al_del i w w' :
    w_next_ref w' = w_next_ref w -> w_aliases w' = delete i (w_aliases w) -> w_log w' = w_log w -> w_tasks w' = w_tasks w ->
    al_step w w'.
  Proof.
    intros H1 H2 H3 H4. split.
    - intros [I1 I2 I3]. constructor; rewrite ?H2, ?H4, ?H1; auto.
      intros o. rewrite lookup_delete_Some. intros [_ E]. exact (I2 o E).
    - unfold al_cnt, one_shot, carried. rewrite H2, H3.
      destruct (decide (i = k)) as [->|Hne]; [rewrite lookup_delete | rewrite lookup_delete_ne by congruence]; lia.
  Qed.
  Lemma al_push i x w : ~ carries x -> al_step w (push i x w).
  Proof.
    intros Hx. unfold push. case_match; [|by apply al_same]. split.
    - intros [I1 I2 I3]. constructor; auto.
    - unfold al_cnt, one_shot, carried; cbn. rewrite list.filter_app, app_length, filter_cons_False by exact Hx.
      cbn. lia.
  Qed.
  Lemma al_step_trans a b c : al_step a b -> al_step b c -> al_step a c.
  Proof. intros [A1 A2] [B1 B2]. split; [auto | lia]. Qed.
  Lemma al_refl w : al_step w w. Proof. split; auto. Qed.
  Lemma al_exit p f y w : al_step w (exit_op p f y w).
  Proof.
    unfold exit_op. repeat case_match; try (apply al_same; cbn; first [reflexivity | lia]);
      apply al_push; unfold carries; intros [|]; discriminate.
  Qed.
  Ltac asame := apply al_same; cbn; first [reflexivity | lia].
  Lemma quiet_al w w' : quiet w w' -> al_step w w'.
  Proof.
    intros H; destruct H; try tauto.
    all: try asame.
    - unfold receive_op. repeat case_match; asame.
    - by eapply (al_del i).
    - unfold alias_take_op. repeat case_match; try asame. by eapply (al_del (ref_id r)).
    - apply al_push. intros Hc. destruct Hc as [-> | ->]; apply H; cbn; unfold carries; auto.
    - unfold send_to. case_match; [|asame].
      apply al_push. intros Hc. destruct Hc as [-> | ->]; apply H; cbn; unfold carries; auto.
    - unfold node_register_op, spawn_op. repeat case_match; simplify_eq; asame.
    - unfold send_frame, hand_out. repeat case_match; asame.
    - split.
      + intros [I1 I2 I3]. constructor; auto. intros j t'. cbn. rewrite lookup_insert_Some.
        intros [[_ <-]|[_ E]]; [left; by split | eauto].
      + unfold al_cnt, one_shot, carried; cbn. lia.
    - split.
      + intros [I1 I2 I3]. constructor; auto. intros j t. cbn. rewrite lookup_alter_Some.
        intros [[_ (t' & E & ->)]|[_ E]]; [apply (I3 _ _ E) | eauto].
      + unfold al_cnt, one_shot, carried; cbn. lia.
    - unfold register_op. repeat case_match; asame.
    - apply al_exit.
    - unfold exit_linked_op. repeat case_match; try asame; apply al_push; unfold carries; intros [|]; discriminate.
    - unfold node_start_op, spawn_op. repeat case_match; simplify_eq; asame.
    - unfold node_disconnect_op. case_match; [|asame]. case_match; [|asame]. case_match; [|asame].
      eapply al_step_trans; [|eapply (al_same (exit_op p0 p RKill (up_pend (delete n) w))); cbn; first [reflexivity | lia]].
      eapply al_step_trans; [|apply al_exit]. asame.
    - unfold node_accept_op. case_match; [|asame]. case_match; [|asame].
      match goal with |- context [if bool_decide _ then ?x else w] => set (w1 := if bool_decide (n_state n1 = Pending) then x else w) end.
      assert (al_step w w1) as H1.
      { unfold w1. repeat case_match; try apply al_refl. apply al_exit. }
      clearbody w1. eapply al_step_trans; [exact H1|]. case_match; asame.
    - unfold node_workers_op, hand_out. repeat case_match; asame.
    - unfold sup_down_op. repeat case_match; asame.
  Qed.

  Notation tk := (tok al_inv al_cnt).
  Definition anyQ {A} : A -> nat -> Prop := fun _ _ => True.
  Lemma tk_any {A} h (q : prog world A) : guar quiet q -> tk (fun _ h' => h' = h) h q.
  Proof. intros H. apply tok_of_guar; [|auto]. eapply guar_mono; [|exact H]. apply quiet_al. Qed.
  Lemma tk_end {A} h (q : prog world A) : guar quiet q -> tk anyQ h q.
  Proof. intros H. eapply tok_mono; [|apply (tk_any h), H]. intros; exact I. Qed.
  Lemma tk_seq {A B} Q h (q : prog world A) (q' : A -> prog world B) :
    guar quiet q -> (forall a, tk Q h (q' a)) -> tk Q h (bind q q').
  Proof. intros H H'. eapply tok_bind; [apply (tk_any h), H|]. intros a h' ->. apply H'. Qed.
  Lemma tk_each_any {A} (l : list A) body : (forall x h, x ∈ l -> tk anyQ h (body x)) -> forall h, tk anyQ h (each l body).
  Proof.
    induction l as [|x l IH]; intros Hb h; cbn; [exact I|].
    eapply tok_bind; [apply Hb; set_solver|]. intros [] h' _. apply IH. intros; apply Hb; set_solver.
  Qed.

  Lemma push_cnt i x w : al_inv w -> al_inv (push i x w) /\ al_cnt (push i x w) <= al_cnt w + 1.
  Proof.
    intros [I1 I2 I3]. unfold push. case_match; [|split; [by constructor | lia]]. split; [by constructor|].
    unfold al_cnt, one_shot, carried; cbn. rewrite list.filter_app, app_length.
    rewrite filter_cons. cbn. case_decide; cbn; lia.
  Qed.
  Lemma not_carries_deact i : ~ carries (IAliasDeactivated i).
  Proof. intros [|]; discriminate. Qed.
  (** Through the alias: the token is the entry itself. *)
  Lemma tk_deliver_alias x h : tk anyQ h (deliver (DAlias (RLocal k)) x).
  Proof.
    cbn [deliver]. unfold alias_retrieve. eapply tok_bind.
    { eapply tok_bind.
      { apply (tok_atom _ _ (fun x h' => match x with Some (_, b) => b = true /\ h' = h + 1 | None => True end)).
        intros w Hw. unfold alias_take_op; cbn [ref_id].
        destruct (w_aliases w !! k) as [[o b]|] eqn:E.
        - destruct b; [|destruct (ai_reply w Hw o E)]. cbn. split.
          + apply (al_del k w); auto.
          + exists (h + 1). split; [|auto]. unfold al_cnt, one_shot, carried; cbn. rewrite lookup_delete, E. lia.
        - cbn. split; [exact Hw|]. exists h. split; [lia | exact I]. }
      intros [[o b]|] h' Hb.
      - destruct Hb as [-> ->]. apply tk_seq.
        { apply guar_modify; intros; constructor; exact I. }
        intros _. instantiate (1 := fun a h' => match a with Some _ => h' = h + 1 | None => True end). reflexivity.
      - exact I. }
    intros [o|] h' Hh; [|exact I]. subst h'. apply tok_modify. intros w Hw.
    destruct (push_cnt o x w Hw). split; [assumption|]. exists h. split; [lia | exact I].
  Qed.
  Lemma tk_send_one_alias d u h : only_alias d -> tk anyQ h (send_one S d u).
  Proof.
    intros Hd. unfold send_one. destruct (dest_is_local d) eqn:E.
    - rewrite (Hd E). apply tk_deliver_alias.
    - apply tk_end. apply guar_bind; [apply guar_remote_target|]. intros t. apply guar_modify; intros; constructor.
  Qed.
  Lemma tk_send_loop_alias u l first rem h :
    Forall only_alias l -> (forall d, first = Some d -> only_alias d) ->
    tk (fun x _ => forall d, fst x = Some d -> only_alias d) h (send_loop S u l first rem).
  Proof.
    revert first rem h; induction l as [|d l IH]; intros first rem h Hl Hf; cbn [send_loop]; [exact Hf|].
    apply Forall_cons in Hl as [Hd Hl]. destruct (dest_is_local d) eqn:E.
    - destruct first as [d1|].
      + rewrite (Hd E). eapply tok_bind; [apply tk_deliver_alias|]. intros [] h' _. by apply IH.
      + apply IH; [exact Hl|]. intros ? [= <-]. exact Hd.
    - apply tk_seq; [apply guar_remote_target|]. intros t. by apply IH.
  Qed.
  Lemma tk_send u ds h : other_value u \/ Forall only_alias (dests_list ds) -> tk anyQ h (send S ds u).
  Proof.
    intros [Hu|Hd]; [apply tk_end, guar_send; exact Hu|].
    unfold send. destruct ds as [d|l]; cbn in Hd.
    - apply tk_send_one_alias. exact (proj1 (Forall_singleton _ _) Hd).
    - eapply tok_bind; [by apply tk_send_loop_alias|]. intros [fd rem] h' Hf; cbn in Hf |- *.
      eapply (tok_bind _ _ anyQ).
      + destruct fd as [d|]; [|exact I]. apply tk_send_one_alias; auto.
      + intros [] h'' _. apply tk_end. apply guar_each. intros x. apply guar_modify; intros; constructor.
  Qed.
  Lemma tk_forward ts m h : ~ carries (IUserRemote m) \/ Forall (fun t => t = TAlias k) ts ->
    tk anyQ h (forward_send ts m).
  Proof.
    intros H. unfold forward_send. apply tk_each_any. intros t h' Ht. destruct H as [Hm|Hts].
    - apply tk_end. apply guar_deliver. exact Hm.
    - rewrite (proj1 (Forall_forall _ _) Hts t Ht). apply tk_deliver_alias.
  Qed.
  Lemma tk_fire i h : tk anyQ h (timer_fire S i).
  Proof.
    unfold timer_fire. eapply (tok_bind _ _ (fun t _ => match t with
        Some t => other_value (t_val t) \/ Forall only_alias (dests_list (t_dests t)) | None => True end)).
    - cbn. intros w Hw _. split.
      + eapply (proj1 (quiet_al _ _ (st_task_kill _ _ _ _ _ i w))). exact Hw.
      + exists h. split; [unfold al_cnt, one_shot, carried; cbn; lia|].
        destruct (w_tasks w !! i) as [t|] eqn:E; [|exact I]. apply (ai_tasks w Hw _ _ E).
    - intros [t|] h' Ht; [|exact I]. eapply tok_bind; [apply tk_send, Ht|]. intros [] h'' _.
      apply tk_end. apply guar_destroy_timer.
  Qed.
  Lemma tk_fresh h : tk (fun r h' => h' = h /\ ref_id r <> k) h fresh_ref.
  Proof.
    apply tok_atom. intros w Hw. cbn. split.
    - apply (al_same w); cbn; auto. lia.
    - exists h. split; [unfold al_cnt, one_shot, carried; cbn; lia|]. split; [reflexivity|].
      pose proof (ai_next w Hw). lia.
  Qed.
  Lemma tk_create {B} me r b h (q : prog world B) : ref_id r <> k -> tk anyQ h q ->
    tk anyQ h (do! modify (alias_create_op me r b) in q).
  Proof.
    intros Hr Hq. eapply (tok_bind _ _ (fun _ h' => h' = h)); [|intros [] h' ->; exact Hq].
    apply tok_modify_same; [| |reflexivity].
    - intros w [I1 I2 I3]. constructor; auto. intros o. cbn. rewrite lookup_insert_ne by exact Hr. apply I2.
    - intros w _. unfold al_cnt, one_shot, carried; cbn. rewrite lookup_insert_ne by exact Hr. lia.
  Qed.
  Lemma tk_ret_as {A} (f : A -> val) (q : prog world A) h : tk anyQ h q -> tk anyQ h (ret_as f q).
  Proof. intros Hq. eapply tok_bind; [exact Hq|]. intros a h' _. exact I. Qed.

  Lemma call_tok_alias c : only_via_alias c -> tk anyQ 0 (call_prog S c).
  Proof.
    intros Ho.
    assert (permitted S (fun x => ~ carries x) True False True c -> tk anyQ 0 (call_prog S c)) as Hn.
    { intros Hp. apply tk_end. by apply call_steps_permitted. }
    destruct c; try (apply Hn; cbn; by auto); cbn [call_prog]; cbn in Ho; apply tk_ret_as.
    - unfold alias. eapply tok_bind; [apply tk_fresh|]. intros r h [-> Hr].
      apply tk_seq; [apply guar_modify; intros; constructor|]. intros _. apply tk_create; [exact Hr | exact I].
    - apply tk_send, Ho.
    - unfold send_after. eapply tok_bind; [apply tk_fresh|]. intros r h [-> Hr].
      eapply (tok_bind _ _ (fun _ h' => h' = 0)).
      { apply tok_modify_same; [| |reflexivity].
        - intros w [I1 I2 I3]. constructor; auto. intros j t. cbn. rewrite lookup_insert_Some.
          intros [[_ <-]|[_ E]]; [exact Ho | eauto].
        - intros w _. unfold al_cnt, one_shot, carried; cbn. lia. }
      intros [] h ->. apply tk_end. apply guar_bind; [apply guar_modify; intros; constructor | intros; exact I].
    - apply tk_fire.
    - unfold monitor_alias. eapply tok_bind; [apply tk_fresh|]. intros r h [-> Hr].
      apply tk_create; [exact Hr|]. apply tk_end. apply guar_bind; [by apply guar_monitor_install | intros; exact I].
    - destruct f; try (apply tk_end, guar_receive_frame; by auto). apply tk_forward, Ho.
  Qed.
End alias.
