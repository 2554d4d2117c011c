(** At most one ProcessDown / NodeDown per monitor reference is ever received, under every
    schedule; none after the monitor is gone from the owner's table: the token argument. *)
From stdpp Require Import base list gmap numbers strings countable sorting.
From Coq Require Import Lia.
From Verif Require Import Prog ProgProofs ProgInv Types Mailbox World ProcApi NodeApi Api Steps Msum SchedSpec SchedProofs DownProofs.

Section recv.
  Context (S : serde) (k : N).
  Notation r0 := (RLocal k).
  Notation has := (has k).
  Definition mdown (m : sysmsg) : nat :=
    match m with
    | SProcessDown _ r _ | SNodeDown _ r => if decide (r = r0) then 1 else 0
    | _ => 0
    end.
  (** Notices that are past the monitor check. *)
  Definition ripe (x : item) : nat := match x with ISystem m => mdown m | _ => 0 end.
  Definition ripes (l : list item) : nat := list_sum (map ripe l).
  Definition mcount (l : plocal) : nat := has (l_monitors l) + ripes (l_items l) + ripes (l_chan l).
  Definition rcv_cnt (w : world) : nat := unalloc (w_next_ref w) k + msum mcount (w_loc w).
  Definition got_down (s : sel) : nat := match s with Found (MSystem m) => mdown m | _ => 0 end.

  Lemma ripes_app a b : ripes (a ++ b) = ripes a + ripes b.
  Proof. unfold ripes. by rewrite map_app, list_sum_app. Qed.
  Lemma ripes_cons x b : ripes (x :: b) = ripe x + ripes b. Proof. reflexivity. Qed.
  Lemma ripes_nil : ripes [] = 0. Proof. reflexivity. Qed.
  Arguments ripes : simpl never.
  Definition res_down (r : pres) : nat := match r with PMsg (MSystem m) => mdown m | _ => 0 end.
  Lemma process_item_count T x l r x' l' : process_item S T x l = (r, x', l') ->
    has (l_monitors l') + ripe x' <= has (l_monitors l) + ripe x /\
    has (l_monitors l') + res_down r <= has (l_monitors l) + ripe x /\
    l_items l' = l_items l /\ l_chan l' = l_chan l.
  Proof.
    unfold process_item. intros H.
    assert (forall r (m : gmap reference pmonitor), m !! r <> None ->
      has (delete r m) + (if decide (r = r0) then 1 else 0) <= has m) as Hd.
    { intros r1 m Hm. unfold DownProofs.has. case_decide as E.
      - subst. rewrite lookup_delete. destruct (m !! r0); [lia | congruence].
      - rewrite lookup_delete_ne by congruence. lia. }
    assert (forall r p (m : gmap reference pmonitor), has (alter (fun _ => p) r m) = has m) as Ha.
    { intros r1 p m. unfold DownProofs.has. destruct (decide (r1 = r0)) as [->|Hne].
      - rewrite lookup_alter. by destruct (m !! r0).
      - by rewrite lookup_alter_ne by congruence. }
    destruct x; repeat case_match; simplify_eq; cbn; rewrite ?Ha; try (by auto);
      try (match goal with E : _ !! ?r = Some _ |- _ => pose proof (Hd r (l_monitors l) ltac:(congruence)) end; cbn in *; lia);
      repeat split; auto; try lia.
    all: match goal with E : _ !! ?r = Some _ |- _ => pose proof (Hd r (l_monitors l) ltac:(congruence)) end; cbn in *; lia.
  Qed.
  Lemma scan_items_count T f b its l s its' l' : scan_items S T f b its l = (s, its', l') ->
    got_down s + has (l_monitors l') + ripes its' <= has (l_monitors l) + ripes its /\
    l_chan l' = l_chan l.
  Proof.
    revert l s its' l'; induction its as [|x its IH]; intros l s its' l' H; cbn in H.
    - simplify_eq. cbn. split; [lia | reflexivity].
    - destruct (process_item S T x l) as [[r x'] l1] eqn:E.
      apply process_item_count in E as (E1 & E2 & E3 & E4).
      destruct r as [m| |].
      + destruct (f m).
        * simplify_eq. cbn [res_down got_down] in *. rewrite ripes_cons. split; [|congruence].
          destruct m; cbn in *; lia.
        * destruct (scan_items S T f b its l1) as [[s1 i1] l2] eqn:E'. simplify_eq.
          apply IH in E' as [F1 F2]. rewrite !ripes_cons. split; [lia | congruence].
      + destruct (scan_items S T f b its l1) as [[s1 i1] l2] eqn:E'. simplify_eq.
        apply IH in E' as [F1 F2]. rewrite !ripes_cons. split; [lia | congruence].
      + destruct b.
        * simplify_eq. rewrite !ripes_cons. cbn. split; [lia | congruence].
        * destruct (scan_items S T f false its l1) as [[s1 i1] l2] eqn:E'. simplify_eq.
          apply IH in E' as [F1 F2]. rewrite !ripes_cons. split; [lia | congruence].
  Qed.
  Lemma scan_chan_count T f b ch l s l' : scan_chan S T f b ch l = (s, l') ->
    got_down s + mcount l' <= has (l_monitors l) + ripes (l_items l) + ripes ch.
  Proof.
    revert l s l'; induction ch as [|x ch IH]; intros l s l' H; cbn in H.
    - simplify_eq. unfold mcount; cbn. rewrite ripes_nil. lia.
    - destruct (process_item S T x l) as [[r x'] l1] eqn:E.
      apply process_item_count in E as (E1 & E2 & E3 & E4). rewrite ripes_cons.
      destruct r as [m| |].
      + destruct (f m).
        * simplify_eq. unfold mcount; cbn. rewrite E3. destruct m; cbn in *; lia.
        * apply IH in H. cbn in H. rewrite ripes_app, E3 in H. change (ripes [x']) with (ripe x' + 0) in H. lia.
      + apply IH in H. rewrite E3 in H. lia.
      + destruct b.
        * simplify_eq. unfold mcount; cbn. rewrite E3. lia.
        * apply IH in H. cbn in H. rewrite ripes_app, E3 in H. change (ripes [x']) with (ripe x' + 0) in H. lia.
  Qed.
  Lemma select_count T f b l s l' : select S T f b l = (s, l') -> got_down s + mcount l' <= mcount l.
  Proof.
    unfold select. destruct (scan_items S T f b (l_items l) l) as [[s1 i1] l1] eqn:E.
    apply scan_items_count in E as [E1 E2]. intros H.
    destruct s1; simplify_eq; unfold mcount; cbn.
    - rewrite E2. cbn in E1. lia.
    - apply scan_chan_count in H. cbn in H. rewrite E2 in H. unfold mcount in H. cbn in E1. lia.
    - rewrite E2. cbn in E1. lia.
  Qed.

  Notation calm := (step1 S (fun _ => True) True True False).
  Lemma rcv_loc_alter (g : plocal -> plocal) i w : (forall l, mcount (g l) <= mcount l) ->
    rcv_cnt (up_loc (alter g i) w) <= rcv_cnt w.
  Proof. intros Hg. unfold rcv_cnt; cbn. pose proof (msum_alter_le mcount g (w_loc w) i Hg). lia. Qed.
  Lemma rcv_push i x w : ripe x = 0 -> rcv_cnt (push i x w) <= rcv_cnt w.
  Proof.
    intros Hx. unfold push. destruct (w_loc w !! i) as [l|] eqn:E; [|lia]. unfold rcv_cnt; cbn.
    pose proof (msum_insert mcount (w_loc w) i (set_chan (l_chan l ++ [x]) l)) as H. rewrite E in H.
    assert (mcount (set_chan (l_chan l ++ [x]) l) = mcount l) as Hm.
    { unfold mcount; cbn. rewrite ripes_app. change (ripes [x]) with (ripe x + 0). lia. }
    lia.
  Qed.
  Lemma allowed_unripe U M x : allowed U M x -> ripe x = 0.
  Proof. destruct x as [| |[]| | | |]; cbn; auto; contradiction. Qed.
  Lemma rcv_same w w' : (w_next_ref w <= w_next_ref w')%N -> w_loc w' = w_loc w -> rcv_cnt w' <= rcv_cnt w.
  Proof. intros H1 H2. unfold rcv_cnt. rewrite H2. pose proof (unalloc_mono _ _ k H1). lia. Qed.
  Lemma rcv_new i w w' : w_next_ref w' = w_next_ref w -> w_loc w' = <[i := new_plocal]> (w_loc w) -> rcv_cnt w' <= rcv_cnt w.
  Proof.
    intros H1 H2. unfold rcv_cnt. rewrite H1, H2. pose proof (msum_insert mcount (w_loc w) i new_plocal) as H.
    assert (mcount new_plocal = 0) as H0 by (unfold mcount, DownProofs.has; cbn; rewrite lookup_empty; reflexivity). lia.
  Qed.
  Lemma rcv_exit p f y w : rcv_cnt (exit_op p f y w) <= rcv_cnt w.
  Proof.
    unfold exit_op. repeat case_match; try (apply rcv_same; cbn; first [reflexivity | lia]); apply rcv_push; reflexivity.
  Qed.
  Ltac csame := apply rcv_same; cbn; first [reflexivity | lia].
  Lemma calm_rcv w w' : calm w w' -> (True -> True) /\ rcv_cnt w' <= rcv_cnt w.
  Proof.
    intros H; split; [auto|]. destruct H; try tauto; try csame.
    - apply rcv_loc_alter. intros l. unfold mcount; cbn. lia.
    - apply rcv_loc_alter. intros l. unfold mcount; cbn. lia.
    - apply rcv_loc_alter. intros l. unfold mcount; cbn. pose proof (has_delete k r (l_monitors l)). lia.
    - unfold receive_op. destruct (w_loc w !! me) as [l|] eqn:E; [|csame].
      destruct (select S T f b l) as [s l'] eqn:Es. apply select_count in Es. unfold rcv_cnt; cbn.
      pose proof (msum_insert mcount (w_loc w) me l') as H. rewrite E in H. lia.
    - unfold alias_take_op. repeat case_match; csame.
    - apply rcv_push. eapply allowed_unripe; eassumption.
    - unfold send_to. case_match; [|csame]. apply rcv_push. eapply allowed_unripe; eassumption.
    - unfold node_register_op, spawn_op. repeat case_match; simplify_eq; try csame; by eapply rcv_new.
    - unfold send_frame, hand_out. repeat case_match; csame.
    - by eapply rcv_new.
    - unfold register_op. repeat case_match; csame.
    - apply rcv_exit.
    - unfold exit_linked_op. repeat case_match; try csame; apply rcv_push; reflexivity.
    - unfold gone, rcv_cnt; cbn. pose proof (msum_delete mcount (w_loc w) i). lia.
    - unfold node_start_op, spawn_op. repeat case_match; simplify_eq; try csame; by eapply rcv_new.
    - unfold node_disconnect_op. case_match; [|csame]. case_match; [|csame]. case_match; [|csame].
      etransitivity; [|apply (rcv_exit p0 p RKill w)]. apply rcv_same.
      + unfold exit_op. cbn. repeat case_match; cbn; try lia; unfold push; repeat case_match; cbn; lia.
      + unfold exit_op. cbn. repeat case_match; cbn; try reflexivity; unfold push; repeat case_match; cbn; reflexivity.
    - unfold node_accept_op. case_match; [|csame]. case_match; [|csame].
      match goal with |- context [if bool_decide _ then ?x else w] => set (w1 := if bool_decide (n_state n1 = Pending) then x else w) end.
      assert (rcv_cnt w1 <= rcv_cnt w) as H1.
      { unfold w1. repeat case_match; try lia. apply rcv_exit. }
      clearbody w1. etransitivity; [|exact H1]. case_match; csame.
    - unfold node_workers_op, hand_out. repeat case_match; csame.
    - unfold sup_down_op. repeat case_match; csame.
  Qed.

  Notation tk := (tok (fun _ => True) rcv_cnt).
  Notation anyQ := (fun _ _ => True).
  Lemma tk_any {A} h (q : prog world A) : guar calm q -> tk (fun _ h' => h' = h) h q.
  Proof. intros H. apply tok_of_guar; [|auto]. eapply guar_mono; [|exact H]. apply calm_rcv. Qed.
  Lemma tk_seq {A B} Q h (q : prog world A) (q' : A -> prog world B) :
    guar calm q -> (forall a, tk Q h (q' a)) -> tk Q h (bind q q').
  Proof. intros H H'. eapply tok_bind; [apply (tk_any h), H|]. intros a h' ->. apply H'. Qed.
  Lemma tk_end {A} h (q : prog world A) : guar calm q -> tk anyQ h q.
  Proof. intros H. eapply tok_mono; [|apply (tk_any h), H]. intros; exact I. Qed.
  Notation is0 := (is0 k).
  Lemma tk_fresh h : tk (fun r h' => h' = h + is0 r) h fresh_ref.
  Proof.
    apply tok_atom. intros w _. cbn. split; [exact I|]. eexists. split; [|reflexivity].
    unfold rcv_cnt; cbn. pose proof (unalloc_take (w_next_ref w) k) as Ht.
    unfold DownProofs.is0. destruct (decide (w_next_ref w = k)) as [<-|Hne]; [rewrite decide_True by reflexivity|rewrite decide_False by congruence]; lia.
  Qed.
  Lemma tk_own {B} me r m h (q : prog world B) : is0 r <= h -> (forall h, tk anyQ h q) ->
    tk anyQ h (do! own_monitor me r m in q).
  Proof.
    intros Hh Hq. eapply (tok_bind _ _ (fun _ _ => True)); [|intros [] h' _; apply (Hq h')].
    apply tok_modify. intros w _. split; [exact I|]. exists (h - is0 r). split; [|exact I].
    unfold rcv_cnt; cbn.
    assert (msum mcount (alter (upd_monitors <[r:=m]>) me (w_loc w)) <= msum mcount (w_loc w) + is0 r) as H; [|lia].
    destruct (w_loc w !! me) as [l|] eqn:E.
    - replace (alter (upd_monitors <[r:=m]>) me (w_loc w)) with (<[me := upd_monitors <[r:=m]> l]> (w_loc w)).
      + pose proof (msum_insert mcount (w_loc w) me (upd_monitors <[r:=m]> l)) as H. rewrite E in H.
        assert (mcount (upd_monitors <[r:=m]> l) <= mcount l + is0 r); [|lia].
        unfold mcount; cbn. pose proof (has_insert k r m (l_monitors l)). unfold DownProofs.is0. lia.
      + apply map_eq; intros j. destruct (decide (j = me)) as [->|Hne].
        * by rewrite lookup_insert, lookup_alter, E.
        * by rewrite lookup_insert_ne, lookup_alter_ne by congruence.
    - replace (alter (upd_monitors <[r:=m]>) me (w_loc w)) with (w_loc w); [lia|].
      apply map_eq; intros j. destruct (decide (j = me)) as [->|Hne].
      + by rewrite lookup_alter, E.
      + by rewrite lookup_alter_ne by congruence.
  Qed.
  Lemma tk_monitor_install me d r h : is0 r <= h -> tk anyQ h (monitor_install me d r).
  Proof.
    intros Hr. unfold monitor_install. destruct d as [p|n nd|r']; [| |exact I].
    - case_decide; [exact I|]. apply tk_own; [exact Hr|]. intros h'. apply tk_end.
      destruct (pid_is_local p).
      + unfold monitor_local. apply guar_bind; [apply guar_observe; intros; apply st_none|]. intros [|].
        * apply guar_modify; intros. apply st_add_mon; cbn; eauto.
        * by apply guar_self_down.
      + apply guar_bind; [apply guar_observe; intros; apply st_none|]. intros [[n a]|]; [by apply guar_monitor_remote | by apply guar_self_down].
    - destruct nd as [|nm a].
      + apply tk_seq; [apply guar_observe; intros; apply st_none|]. intros [i|].
        * apply tk_own; [exact Hr|]. intros h'. apply tk_end. unfold monitor_local.
          apply guar_bind; [apply guar_observe; intros; apply st_none|]. intros [|].
          -- apply guar_modify; intros. apply st_add_mon; cbn; eauto.
          -- by apply guar_self_down.
        * apply tk_own; [exact Hr|]. intros h'. apply tk_end. by apply guar_self_down.
      + apply tk_own; [exact Hr|]. intros h'. apply tk_end. by apply guar_monitor_remote.
  Qed.

  (** What a call received. *)
  Definition received_down (v : val) : nat := match v with VReceived (Some s) => got_down s | _ => 0 end.
  Lemma tk_ret_as0 {A} (f : A -> val) (q : prog world A) h : (forall a, received_down (f a) = 0) ->
    tk anyQ h q -> tk (fun v h' => received_down v <= h') h (ret_as f q).
  Proof. intros Hf Hq. eapply tok_bind; [exact Hq|]. intros a h' _. cbn. rewrite Hf. lia. Qed.
  Lemma tk_calm_call {A} (f : A -> val) (q : prog world A) h : (forall a, received_down (f a) = 0) ->
    guar calm q -> tk (fun v h' => received_down v <= h') h (ret_as f q).
  Proof. intros Hf Hq. apply tk_ret_as0; [exact Hf|]. by apply tk_end. Qed.
  Lemma guar_unret' {A} (f : A -> val) (q : prog world A) : guar calm (ret_as f q) -> guar calm q.
  Proof.
    unfold ret_as. induction q as [a|m|g h kk IH]; cbn; auto. intros H w Hw. destruct (H w Hw). split; auto.
  Qed.
  Lemma call_tok_rcv c : tk (fun v h => received_down v <= h) 0 (call_prog S c).
  Proof.
    assert (forall A (f : A -> val) q, call_prog S c = ret_as f q -> (forall a, received_down (f a) = 0) ->
      permitted S (fun _ => True) True True False c -> tk (fun v h => received_down v <= h) 0 (call_prog S c)) as Hn.
    { intros A f q E Hf Hp. rewrite E. apply tk_calm_call; [exact Hf|]. apply (guar_unret' f). rewrite <- E.
      by apply call_steps_permitted. }
    destruct c; try (eapply Hn; [reflexivity | intros; cbn; reflexivity | cbn; unfold can_send; by auto]); cbn [call_prog].
    - (* spawn *)
      destruct monitor; [|eapply Hn; [reflexivity | intros [? []]; reflexivity | cbn; discriminate]].
      apply tk_ret_as0; [intros [? []]; reflexivity|].
      unfold spawn. apply tk_seq; [apply guar_atom; intros; constructor|]. intros i.
      apply tk_seq.
      { destruct link; [|exact I]. apply guar_bind; [|intros]; apply guar_modify; intros; constructor. }
      intros _. eapply tok_bind.
      { eapply tok_bind; [apply tk_fresh|]. intros r h ->. apply tk_own; [lia|]. intros h'. apply tk_end.
        apply guar_bind; [apply guar_modify; intros; apply st_add_mon; cbn; eauto | intros; exact I]. }
      intros r h _. apply tk_end.
      apply guar_bind; [apply guar_modify; intros; constructor|]. intros _.
      apply guar_bind; [apply guar_modify; intros; constructor|]. intros _. exact I.
    - apply tk_ret_as0; [reflexivity|]. unfold monitor. eapply tok_bind; [apply tk_fresh|]. intros r h ->.
      eapply tok_bind; [apply tk_monitor_install; lia|]. intros _ h' _. exact I.
    - apply tk_ret_as0; [reflexivity|]. unfold monitor_alias. eapply tok_bind; [apply tk_fresh|]. intros r h ->.
      apply tk_seq; [apply guar_modify; intros; by constructor|]. intros _.
      eapply tok_bind; [apply tk_monitor_install; lia|]. intros _ h' _. exact I.
    - (* receive *)
      eapply tok_bind; [|intros s h' Hs; exact Hs]. unfold try_receive. apply tok_atom. intros w _. split; [exact I|].
      unfold receive_op. destruct (w_loc w !! me) as [l|] eqn:E; cbn.
      + destruct (select S T f strict l) as [s l'] eqn:Es. apply select_count in Es. cbn. exists (got_down s).
        split; [|lia]. unfold rcv_cnt; cbn. pose proof (msum_insert mcount (w_loc w) me l') as H. rewrite E in H. lia.
      + exists 0. split; lia.
    - apply tk_ret_as0; [reflexivity|]. unfold node_monitor. destruct nd as [|n a]; [exact I|].
      eapply tok_bind; [apply tk_fresh|]. intros r h ->. apply tk_own; [lia|]. intros h'. apply tk_end.
      apply guar_bind; [apply guar_modify; intros; by constructor|]. intros _.
      apply guar_bind; [apply guar_register_node | intros; exact I].
    - eapply Hn; [reflexivity | reflexivity|]. cbn. destruct f; cbn; auto.
  Qed.
End recv.
